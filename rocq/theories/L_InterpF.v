(** * Corollaries and witnesses for the interpolation laws *)
From Coquelicot Require Import Coquelicot.
From Verif Require Import Base NumR NumF M_Interp S_Interp L_Interp L_Interp2.
Local Open Scope R_scope.

Lemma interp_curve_iff : forall i x1 y1 x2 y2, valid_points i x1 y1 x2 y2 ->
  forall x, x1 <= x <= x2 ->
  forall y, on_curve i x1 y1 x2 y2 x y <-> y = interpolate i x x1 y1 x2 y2.
Proof.
  intros i x1 y1 x2 y2 H x Hx y. pose proof (interp_on_curve i _ _ _ _ x H Hx) as C. split.
  - intros D. eapply on_curve_unique; eauto.
  - intros ->. exact C.
Qed.

Lemma interp_ends : forall i x1 y1 x2 y2, valid_points i x1 y1 x2 y2 ->
  interpolate i x1 x1 y1 x2 y2 = y1 /\
  interpolate i x2 x1 y1 x2 y2 = match i with Histogram => y1 | _ => y2 end.
Proof.
  intros i x1 y1 x2 y2 H. split; [apply interp_left; exact H|].
  destruct i; try (apply interp_right; [discriminate | exact H]). reflexivity.
Qed.

Lemma interp_between_mono : forall i x1 y1 x2 y2, valid_points i x1 y1 x2 y2 ->
  (forall x, x1 <= x <= x2 -> Rmin y1 y2 <= interpolate i x x1 y1 x2 y2 <= Rmax y1 y2) /\
  (forall x x', x1 <= x -> x <= x' -> x' <= x2 ->
     (y1 <= y2 -> interpolate i x x1 y1 x2 y2 <= interpolate i x' x1 y1 x2 y2) /\
     (y2 <= y1 -> interpolate i x' x1 y1 x2 y2 <= interpolate i x x1 y1 x2 y2)).
Proof.
  intros i x1 y1 x2 y2 H. split.
  - intros x Hx. apply interp_between; assumption.
  - intros x x' Ha Hb Hc. apply interp_mono; assumption.
Qed.

Lemma interp_invert_both : forall i x1 y1 x2 y2, i <> Histogram ->
  valid_points i x1 y1 x2 y2 -> y1 <> y2 -> forall y, Rmin y1 y2 <= y <= Rmax y1 y2 ->
  x1 <= invert i y x1 y1 x2 y2 <= x2 /\
  interpolate i (invert i y x1 y1 x2 y2) x1 y1 x2 y2 = y.
Proof.
  intros i x1 y1 x2 y2 Hi H Hy y Hr. split; [apply invert_range | apply interpolate_invert]; assumption.
Qed.

Lemma integrate_chasles : forall i x1 y1 x2 y2, valid_points i x1 y1 x2 y2 ->
  forall a b c, x1 <= a <= x2 -> x1 <= b <= x2 -> x1 <= c <= x2 ->
  integrate i a b x1 y1 x2 y2 + integrate i b c x1 y1 x2 y2 = integrate i a c x1 y1 x2 y2 /\
  integrate i a a x1 y1 x2 y2 = 0 /\
  integrate i b a x1 y1 x2 y2 = - integrate i a b x1 y1 x2 y2.
Proof.
  intros i x1 y1 x2 y2 H a b c Ha Hb Hc.
  pose proof (integrate_additive i a b c _ _ _ _ H Ha Hb Hc).
  pose proof (integrate_additive i a a a _ _ _ _ H Ha Ha Ha).
  pose proof (integrate_additive i a b a _ _ _ _ H Ha Hb Ha).
  repeat split; lra.
Qed.

Lemma valid_points_example : forall i, valid_points i 1 2 3 5.
Proof. intros i; unfold valid_points; destruct i; lra. Qed.

Lemma exact_integral_example : forall i, valid_points i 1 2 3 5 /\ exact_integral_data i 1 2 3 5.
Proof.
  intros i; split; [apply valid_points_example|]. destruct i; cbn; try exact I; [lra|].
  right. assert (0 < ln (5 / 2)) by (rewrite <- ln_1; apply ln_increasing; lra).
  assert (0 < ln (3 / 1)) by (rewrite <- ln_1; apply ln_increasing; lra).
  assert (0 < ln (5 / 2) / ln (3 / 1)) by (apply Rdiv_lt_0_compat; assumption).
  rewrite Rabs_right; lra.
Qed.

Lemma loglin_constant_nan : forall lm,
  lm_log lm 1 = 0%float -> (forall y, lm_pow lm 1 y = 1%float) ->
  exists r, @integrate _ (NumF lm) LogLin 1%float 2%float 1%float 2%float 3%float 2%float = r /\
            PrimFloat.is_nan r = true.
Proof.
  intros lm Hl Hp. eexists; split; [reflexivity|].
  cbn [integrate]; unfold loglin_integrate; cbn [nsub ndiv nmul nlog npow NumF].
  replace (PrimFloat.div 2 2)%float with 1%float by (vm_compute; reflexivity).
  rewrite Hl, !Hp. vm_compute. reflexivity.
Qed.
