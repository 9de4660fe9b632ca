(** * Binary64: the comparisons of all doubles that are not NaN form a total preorder.
    Uses the standard library's axioms ltb_spec, leb_spec, eqb_spec (Coq.Floats.FloatAxioms). *)
From Verif Require Import Base NumF.
From Coq Require Import FloatAxioms SpecFloat.
Local Open Scope Z_scope.

Definition key (f : spec_float) : Z * Z * Z :=
  match f with
  | S754_infinity true => (-2, 0, 0)
  | S754_finite true m e => (-1, - e, - Zpos m)
  | S754_zero _ => (0, 0, 0)
  | S754_finite false m e => (1, e, Zpos m)
  | S754_infinity false => (2, 0, 0)
  | S754_nan => (0, 0, 0)
  end.
Definition klt (a b : Z * Z * Z) : bool :=
  let '(a1, a2, a3) := a in let '(b1, b2, b3) := b in
  (a1 <? b1) || ((a1 =? b1) && ((a2 <? b2) || ((a2 =? b2) && (a3 <? b3)))).

Lemma SFcompare_key x y : x <> S754_nan -> y <> S754_nan ->
  SFcompare x y = Some (if klt (key x) (key y) then Lt else if klt (key y) (key x) then Gt else Eq).
Proof.
  intros Hx Hy.
  destruct x as [sx|sx| |sx mx ex]; destruct y as [sy|sy| |sy my ey]; try easy;
    try destruct sx; try destruct sy; cbn [key klt SFcompare]; try reflexivity;
  change (Pos.compare_cont Eq mx my) with (Pos.compare mx my); rewrite ?Z.eqb_refl; cbn [Z.ltb Z.compare orb andb];
  destruct (Z.compare_spec ex ey), (Pos.compare_spec mx my); subst; cbn [CompOpp];
  repeat match goal with |- context [if ?b then _ else _] => destruct b eqn:? end;
  try reflexivity; exfalso; lia.
Qed.

Definition notNaN (x : float) : Prop := Prim2SF x <> S754_nan.

Lemma ltb_key x y : notNaN x -> notNaN y -> PrimFloat.ltb x y = klt (key (Prim2SF x)) (key (Prim2SF y)).
Proof.
  intros Hx Hy. rewrite ltb_spec. unfold SFltb. rewrite SFcompare_key by assumption.
  destruct (klt (key (Prim2SF x)) _); [reflexivity|]. destruct (klt (key (Prim2SF y)) _); reflexivity.
Qed.
Lemma klt_asym a b : klt a b = true -> klt b a = false.
Proof. destruct a as [[a1 a2] a3], b as [[b1 b2] b3]; cbn; lia. Qed.

Lemma NumF_order lm : NumOrder (NumF lm) notNaN.
Proof.
  split; cbn [nltb nleb neqb NumF]; intros.
  - rewrite ltb_key by assumption. destruct (key (Prim2SF x)) as [[a b] c]; cbn; lia.
  - rewrite ltb_key in * by assumption.
    destruct (key (Prim2SF x)) as [[? ?] ?], (key (Prim2SF y)) as [[? ?] ?], (key (Prim2SF z)) as [[? ?] ?]; cbn in *; lia.
  - rewrite ltb_key in * by assumption.
    destruct (key (Prim2SF x)) as [[? ?] ?], (key (Prim2SF y)) as [[? ?] ?], (key (Prim2SF z)) as [[? ?] ?]; cbn in *; lia.
  - rewrite leb_spec, ltb_key by assumption. unfold SFleb. rewrite SFcompare_key by assumption.
    destruct (klt (key (Prim2SF x)) _) eqn:E; [rewrite klt_asym by assumption; reflexivity|]. destruct (klt (key (Prim2SF y)) _); reflexivity.
  - rewrite eqb_spec, !ltb_key by assumption. unfold SFeqb. rewrite SFcompare_key by assumption.
    destruct (klt (key (Prim2SF x)) _) eqn:E; [reflexivity|]. destruct (klt (key (Prim2SF y)) _); reflexivity.
Qed.

Lemma notNaN_is_nan x : PrimFloat.is_nan x = false -> notNaN x.
Proof.
  unfold PrimFloat.is_nan, notNaN. rewrite eqb_spec. intros H E. rewrite E in H. discriminate.
Qed.
