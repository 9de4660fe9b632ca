(** * Exact real arithmetic instance of [Num] *)
From Coq Require Export Reals Lra.
From Coquelicot Require Import Coquelicot.
From Verif Require Export Base.
Open Scope R_scope.

Definition Rltb (x y : R) : bool := if Rlt_dec x y then true else false.
Definition Rleb (x y : R) : bool := if Rle_dec x y then true else false.
Definition Reqb (x y : R) : bool := if Req_EM_T x y then true else false.

(** std::pow: exp(y ln x) on a positive base, the integer power when the exponent is an integer; other powers of a
    nonpositive base (NaN or 0 in C++) are 0 here and no theorem depends on them. *)
Definition Rpow (x y : R) : R :=
  if Rlt_dec 0 x then Rpower x y else if Req_EM_T y (IZR (Int_part y)) then powerRZ x (Int_part y) else 0.

(** erf as its defining integral *)
Definition Rerf (x : R) : R := 2 / sqrt PI * RInt (fun t => exp (- (t * t))) 0 x.

#[export] Instance NumR : Num R := {|
  nadd := Rplus; nsub := Rminus; nmul := Rmult; ndiv := Rdiv; nopp := Ropp;
  nabs := Rabs; nsqrt := sqrt;
  nltb := Rltb; nleb := Rleb; neqb := Reqb;
  nsignbit := fun x => Rltb x 0;
  nofZ := IZR;
  nfloor := fun x => Some (Int_part x);
  nexp := exp; nlog := ln; npow := Rpow;
  nsin := sin; ncos := cos; nsinh := sinh; ncosh := cosh; nerf := Rerf; npi := PI
|}.

Lemma Rltb_true x y : Rltb x y = true <-> x < y.
Proof. unfold Rltb; destruct (Rlt_dec x y); split; intros; try easy; lra. Qed.
Lemma Rltb_false x y : Rltb x y = false <-> y <= x.
Proof. unfold Rltb; destruct (Rlt_dec x y); split; intros; try easy; lra. Qed.
Lemma Rleb_true x y : Rleb x y = true <-> x <= y.
Proof. unfold Rleb; destruct (Rle_dec x y); split; intros; try easy; lra. Qed.
Lemma Rleb_false x y : Rleb x y = false <-> y < x.
Proof. unfold Rleb; destruct (Rle_dec x y); split; intros; try easy; lra. Qed.
Lemma Reqb_true x y : Reqb x y = true <-> x = y.
Proof. unfold Reqb; destruct (Req_EM_T x y); split; intros; try easy; lra. Qed.
Lemma Reqb_false x y : Reqb x y = false <-> x <> y.
Proof. unfold Reqb; destruct (Req_EM_T x y); split; intros; try easy; lra. Qed.

Lemma Rltb_spec x y : BoolSpec (x < y) (y <= x) (Rltb x y).
Proof. destruct (Rltb x y) eqn:E; constructor; [apply Rltb_true | apply Rltb_false]; exact E. Qed.
Lemma Rleb_spec x y : BoolSpec (x <= y) (y < x) (Rleb x y).
Proof. destruct (Rleb x y) eqn:E; constructor; [apply Rleb_true | apply Rleb_false]; exact E. Qed.
Lemma Reqb_spec x y : BoolSpec (x = y) (x <> y) (Reqb x y).
Proof. destruct (Reqb x y) eqn:E; constructor; [apply Reqb_true | apply Reqb_false]; exact E. Qed.

Lemma NumR_order : NumOrder NumR (fun _ => True).
Proof.
  split; cbn; intros.
  - apply Rltb_false; lra.
  - apply Rltb_true; apply Rltb_true in H2, H3; lra.
  - apply Rltb_false; apply Rltb_false in H2, H3; lra.
  - destruct (Rleb_spec x y), (Rltb_spec y x); cbn; lra || reflexivity.
  - destruct (Reqb_spec x y), (Rltb_spec x y), (Rltb_spec y x); cbn; lra || reflexivity.
Qed.

Lemma Rpow_pos x y : 0 < x -> Rpow x y = Rpower x y.
Proof. intros; unfold Rpow; destruct (Rlt_dec 0 x); [reflexivity | lra]. Qed.

Lemma prod_pos_cases a b : 0 < a * b -> (0 < a /\ 0 < b) \/ (a < 0 /\ b < 0).
Proof.
  intros H. destruct (Rtotal_order a 0) as [L|[->|L]].
  - right; split; [exact L|]. destruct (Rlt_le_dec b 0); [assumption|].
    assert (0 <= (- a) * b) by (apply Rmult_le_pos; lra). lra.
  - lra.
  - left; split; [exact L|]. destruct (Rlt_le_dec 0 b); [assumption|].
    assert (0 <= a * (- b)) by (apply Rmult_le_pos; lra). lra.
Qed.

Lemma Int_part_spec x : IZR (Int_part x) <= x < IZR (Int_part x) + 1.
Proof. destruct (base_Int_part x); lra. Qed.

Lemma Int_part_unique x n : IZR n <= x < IZR n + 1 -> Int_part x = n.
Proof.
  intros H; pose proof (Int_part_spec x) as H1.
  assert (IZR (Int_part x) < IZR (n + 1)) by (rewrite plus_IZR; lra).
  assert (IZR n < IZR (Int_part x + 1)) by (rewrite plus_IZR; lra).
  apply lt_IZR in H0, H2. lia.
Qed.

Lemma Rpow_int x n : Rpow x (IZR n) = powerRZ x n.
Proof.
  assert (E : Int_part (IZR n) = n) by (apply Int_part_unique; lra).
  unfold Rpow. destruct (Rlt_dec 0 x); [symmetry; apply powerRZ_Rpower; assumption|]. rewrite E. destruct (Req_EM_T (IZR n) (IZR n)); [reflexivity|contradiction].
Qed.

(** expose real operations in a goal about [NumR] *)
Ltac rnum := cbv [nadd nsub nmul ndiv nopp nabs nsqrt nltb nleb neqb nsignbit nofZ nfloor nexp nlog
  npow nsin ncos nsinh ncosh nerf npi NumR nlit nmin nmax].
Ltac rnumi := cbv [nadd nsub nmul ndiv nopp nabs nsqrt nltb nleb neqb nsignbit nofZ nfloor nexp nlog
  npow nsin ncos nsinh ncosh nerf npi NumR nlit nmin nmax] in *.

(** split one real comparison appearing in the goal *)
Ltac rcase1 :=
  match goal with
  | |- context [Rltb ?a ?b] => destruct (Rltb_spec a b)
  | |- context [Rleb ?a ?b] => destruct (Rleb_spec a b)
  | |- context [Reqb ?a ?b] => destruct (Reqb_spec a b)
  end.
(** decide a comparison by [lra] *)
Ltac rdec :=
  repeat match goal with
  | |- context [Rltb ?a ?b] =>
      first [ replace (Rltb a b) with true by (symmetry; apply Rltb_true; lra)
            | replace (Rltb a b) with false by (symmetry; apply Rltb_false; lra) ]
  | |- context [Rleb ?a ?b] =>
      first [ replace (Rleb a b) with true by (symmetry; apply Rleb_true; lra)
            | replace (Rleb a b) with false by (symmetry; apply Rleb_false; lra) ]
  | |- context [Reqb ?a ?b] =>
      first [ replace (Reqb a b) with true by (symmetry; apply Reqb_true; lra)
            | replace (Reqb a b) with false by (symmetry; apply Reqb_false; lra) ]
  end.

(** evaluate a closed model term over R: reduce everything but real operations, deciding comparisons *)
Ltac reval :=
  repeat (progress (cbv -[Rltb Rleb Reqb IZR Rplus Rminus Rmult Rdiv Rinv Ropp Rabs sqrt exp ln Rpow sin cos sinh cosh
    Rerf PI Int_part]; rdec)).
