From Coquelicot Require Import Coquelicot.
From Verif Require Import Base NumR M_Interp M_Tab1D M_Func S_Interp S_Tab1D L_Search L_SearchR L_Tab1D L_Tab1DR L_Tab1DI.
Local Open Scope R_scope.

(** [poly_from i c x] = c_0 x^i + c_1 x^(i+1) + ... *)
Fixpoint poly_from (i : nat) (c : list R) (x : R) : R :=
  match c with [] => 0 | a :: t => a * x ^ i + poly_from (S i) t x end.

Lemma poly_from_S i c x : poly_from (S i) c x = x * poly_from i c x.
Proof. revert i; induction c as [|a c IH]; intros i; cbn [poly_from]; [ring|]. rewrite IH. cbn [pow]. ring. Qed.

Lemma poly_eval_spec c x : poly_eval c x = poly_from 0 c x.
Proof.
  unfold poly_eval. rnum. rewrite fold_left_rev_right || idtac.
  rewrite <- fold_left_rev_right, rev_involutive. induction c as [|a c IH]; [reflexivity|].
  cbn [fold_right poly_from]. rewrite IH, poly_from_S. cbn [pow]. ring.
Qed.

(** antiderivative coefficients: c_i / (i+1) *)
Fixpoint anti (i : nat) (c : list R) : list R :=
  match c with [] => [] | a :: t => a / INR (S i) :: anti (S i) t end.

Lemma poly_integrate_spec c lo hi :
  poly_integrate c lo hi = poly_from 1 (anti 0 c) hi - poly_from 1 (anti 0 c) lo.
Proof.
  unfold poly_integrate.
  assert (G : forall c k, 
    fold_left (poly_integrate_step lo hi) (rev c) (0, 0, INR (k + length c)) =
    (poly_from 0 (anti k c) hi, poly_from 0 (anti k c) lo, INR k)).
  { clear c. intros c k. rewrite <- fold_left_rev_right, rev_involutive. revert k.
    assert (G : forall c k z, z = INR (k + length c) ->
      fold_right (fun y x => poly_integrate_step lo hi x y) (0, 0, z) c =
      (poly_from 0 (anti k c) hi, poly_from 0 (anti k c) lo, INR k)).
    { clear c. induction c as [|a c IH]; intros k z ->; [cbn; rewrite Nat.add_0_r; reflexivity|].
      cbn [fold_right]. rewrite (IH (S k)) by (f_equal; cbn; lia).
      unfold poly_integrate_step. cbn [anti poly_from]. rnum. rewrite !poly_from_S. cbn [pow].
      f_equal; [f_equal; ring|]. rewrite S_INR. ring. }
    intros k. apply G. reflexivity. }
  specialize (G c 0%nat). cbn [Nat.add] in G.
  change (@nofZ R NumR 0) with 0. change (@nofZ R NumR (sizeZ c)) with (IZR (sizeZ c)).
  replace (IZR (sizeZ c)) with (INR (length c)) by (unfold sizeZ; rewrite INR_IZR_INZ; reflexivity).
  rewrite G. rewrite !poly_from_S. rnum. ring.
Qed.

Lemma anti_derive : forall c i x,
  is_derive (fun x => poly_from (S i) (anti i c) x) x (poly_from i c x).
Proof.
  induction c as [|a c IH]; intros i x; cbn [anti poly_from].
  - apply @is_derive_const.
  - apply @is_derive_plus; [|apply IH].
    evar_last; [apply is_derive_scal, is_derive_pow, is_derive_id|].
    cbn [pred]. change one with 1. change (Nat.pred (S i)) with i. field. apply not_0_INR; discriminate.
Qed.

Lemma poly_continuous c : forall i x, continuous (fun x => poly_from i c x) x.
Proof.
  induction c as [|a c IH]; intros i x; cbn [poly_from]; [apply continuous_const|].
  apply @continuous_plus; [|apply IH].
  apply (continuous_scal_r a (fun x => x ^ i)).
  apply @ex_derive_continuous. eexists. apply is_derive_pow, is_derive_id.
Qed.

Lemma poly_integrate_RInt c a b : is_RInt (fun x => poly_eval c x) a b (poly_integrate c a b).
Proof.
  rewrite poly_integrate_spec.
  eapply is_RInt_ext; [intros x _; symmetry; apply poly_eval_spec|].
  apply (is_RInt_derive (fun x => poly_from 1 (anti 0 c) x) (fun x => poly_from 0 c x)).
  - intros x _. apply anti_derive.
  - intros x _. apply poly_continuous.
Qed.

(** ** Functions built from constants, polynomials, tables, sums and differences *)
Definition fR (f : func R) (x : R) : R := match feval f x with Ok w => w | _ => 0 end.

(** the function is defined and integrable on [lo,hi]: every table in it is accepted, has valid
    breakpoints and exact segment data, and covers [lo,hi] *)
Inductive good_on (lo hi : R) : func R -> Prop :=
| good_const c : good_on lo hi (FConst c)
| good_poly cs : good_on lo hi (FPoly cs)
| good_tab NBT INT x y t : valid_breakpoints NBT (sizeZ x) -> (sizeZ x < 2 ^ 64)%Z -> make_tab NBT INT x y = Ok t ->
    integrable_segments NBT INT x y -> getR x 0 <= lo -> hi <= getR x (sizeZ x - 1) -> good_on lo hi (FTab t)
| good_sum f g : good_on lo hi f -> good_on lo hi g -> good_on lo hi (FSum f g)
| good_diff f g : good_on lo hi f -> good_on lo hi g -> good_on lo hi (FDiff f g).

Lemma good_defined lo hi f x : good_on lo hi f -> exists w, feval f x = Ok w.
Proof.
  induction 1 as [c|cs|NBT INT xs ys t V B M S L H|f g _ [a A] _ [b B]|f g _ [a A] _ [b B]]; cbn [feval]; eauto.
  - eapply (tab_eval_safe _ NumR_order); eauto using ForallTrue.
  - rewrite A, B. cbn. eauto.
  - rewrite A, B. cbn. eauto.
Qed.

Lemma good_integral lo hi f : good_on lo hi f -> forall a b, lo <= a <= hi -> lo <= b <= hi ->
  exists v, fintegrate f a b = Ok v /\ is_RInt (fR f) a b v.
Proof.
  induction 1 as [c|cs|NBT INT xs ys t V B M S L H|f g F IF G IG|f g F IF G IG]; intros a b Ha Hb; cbn [fintegrate].
  - eexists; split; [reflexivity|]. rnum. replace (c * (b - a)) with (scal (b - a) c) by (unfold scal; cbn; unfold mult; cbn; ring).
    apply (is_RInt_ext (fun _ => c)); [reflexivity|]. apply @is_RInt_const.
  - eexists; split; [reflexivity|]. apply poly_integrate_RInt.
  - destruct (tab_integrate_RInt _ _ _ _ _ V B M S a b) as (v & E & I).
    exists v; split; [exact E|]. rewrite !clampR_id in I by lra. exact I.
  - destruct (IF a b Ha Hb) as (u & -> & U). destruct (IG a b Ha Hb) as (v & -> & W). cbn [bind].
    eexists; split; [reflexivity|]. 
    eapply is_RInt_ext; [|exact (is_RInt_plus _ _ _ _ _ _ U W)].
    intros x _. unfold fR. cbn [feval].
    destruct (good_defined _ _ _ x F) as [p ->]. destruct (good_defined _ _ _ x G) as [q ->]. reflexivity.
  - destruct (IF a b Ha Hb) as (u & -> & U). destruct (IG a b Ha Hb) as (v & -> & W). cbn [bind].
    eexists; split; [reflexivity|].
    eapply is_RInt_ext; [|exact (is_RInt_minus _ _ _ _ _ _ U W)].
    intros x _. unfold fR. cbn [feval].
    destruct (good_defined _ _ _ x F) as [p ->]. destruct (good_defined _ _ _ x G) as [q ->]. reflexivity.
Qed.

Lemma sum_pointwise (f g : func R) h : make_sum (Some f) (Some g) = Ok h ->
  (forall x a b, feval f x = Ok a -> feval g x = Ok b -> feval h x = Ok (a + b)) /\
  (forall lo hi a b, fintegrate f lo hi = Ok a -> fintegrate g lo hi = Ok b -> fintegrate h lo hi = Ok (a + b)).
Proof. intros E; injection E as <-. split; intros; cbn; rewrite H, H0; reflexivity. Qed.
Lemma diff_pointwise (f g : func R) h : make_diff (Some f) (Some g) = Ok h ->
  (forall x a b, feval f x = Ok a -> feval g x = Ok b -> feval h x = Ok (a - b)) /\
  (forall lo hi a b, fintegrate f lo hi = Ok a -> fintegrate g lo hi = Ok b -> fintegrate h lo hi = Ok (a - b)).
Proof. intros E; injection E as <-. split; intros; cbn; rewrite H, H0; reflexivity. Qed.
Lemma sum_rejects {T} (f g : option (func T)) :
  (make_sum f g = Throw <-> f = None \/ g = None) /\ (make_diff f g = Throw <-> f = None \/ g = None) /\
  (forall a b, f = Some a -> g = Some b -> exists h, make_sum f g = Ok h) /\
  (forall a b, f = Some a -> g = Some b -> exists h, make_diff f g = Ok h).
Proof.
  destruct f, g; cbn; repeat split; intros; subst; try discriminate; eauto;
    try (match goal with H : _ \/ _ |- _ => destruct H; discriminate end).
Qed.
