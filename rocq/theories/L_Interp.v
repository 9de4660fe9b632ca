(** * Lemmas on the interpolation laws over R *)
From Coquelicot Require Import Coquelicot.
From Verif Require Import Base NumR M_Interp S_Interp.
From Coq Require Import Psatz.
Local Open Scope R_scope.

(** the normalised position of x between x1 and x2 under law i *)
Definition tpar (i : interpolation) (x x1 x2 : R) : R :=
  match i with
  | Histogram => 0
  | LinLin | LogLin => (x - x1) / (x2 - x1)
  | LinLog | LogLog => ln (x / x1) / ln (x2 / x1)
  end.
Definition blend (i : interpolation) (t y1 y2 : R) : R :=
  match i with
  | Histogram => y1
  | LinLin | LinLog => y1 + (y2 - y1) * t
  | LogLin | LogLog => y1 * exp (t * ln (y2 / y1))
  end.

Lemma same_sign_div a b : 0 < a * b -> 0 < b / a.
Proof.
  intros H. assert (a <> 0) by nra.
  destruct (Rlt_dec 0 a); [assert (0 < b) by nra; apply Rdiv_lt_0_compat; assumption|].
  assert (a < 0) by lra. assert (b < 0) by nra.
  replace (b / a) with ((- b) / (- a)) by (field; lra). apply Rdiv_lt_0_compat; lra.
Qed.

Lemma same_sign_mid x1 x2 x : 0 < x1 * x2 -> x1 <= x <= x2 -> 0 < x1 * x.
Proof. intros H [H1 H2]. destruct (Rlt_dec 0 x1); nra. Qed.

Lemma ln_ratio_ne x1 x2 : 0 < x1 * x2 -> x1 <> x2 -> ln (x2 / x1) <> 0.
Proof.
  intros H D E. pose proof (same_sign_div _ _ H) as P.
  assert (x1 <> 0) by nra.
  assert (x2 / x1 = 1) as F.
  { rewrite <- ln_1 in E. apply ln_inv in E; lra. }
  apply D. replace x2 with ((x2 / x1) * x1) by (field; lra). rewrite F; ring.
Qed.

Lemma ln_ratio_abs a b : 0 < a * b -> ln (b / a) = ln (Rabs b) - ln (Rabs a).
Proof.
  intros H. assert (a <> 0 /\ b <> 0) as [Ha Hb] by (split; nra).
  pose proof (same_sign_div _ _ H). pose proof (Rabs_pos_lt _ Ha). pose proof (Rabs_pos_lt _ Hb).
  rewrite <- ln_div by assumption. f_equal. rewrite <- Rabs_div by assumption.
  symmetry; apply Rabs_right; lra.
Qed.

Lemma interpolate_blend i x x1 y1 x2 y2 :
  valid_points i x1 y1 x2 y2 -> x1 <= x <= x2 ->
  interpolate i x x1 y1 x2 y2 = blend i (tpar i x x1 x2) y1 y2.
Proof.
  intros (Hx & Hlx & Hly) H.
  destruct i; cbn [interpolate blend tpar]; unfold histogram_interpolate, linlin_interpolate,
    linlog_interpolate, loglin_interpolate, loglog_interpolate; rnum.
  - reflexivity.
  - field; lra.
  - unfold Rdiv; ring.
  - rewrite Rpow_pos by (apply same_sign_div; assumption). reflexivity.
  - rewrite Rpow_pos by (apply same_sign_div; eapply same_sign_mid; eauto).
    unfold Rpower. do 2 f_equal. unfold Rdiv; ring.
Qed.

Lemma tpar_0 i x1 x2 : x1 < x2 -> (match i with LinLog | LogLog => 0 < x1 * x2 | _ => True end) ->
  tpar i x1 x1 x2 = 0.
Proof.
  intros H H'. destruct i; cbn; try reflexivity; unfold Rdiv at 1.
  1,3: replace (x1 - x1) with 0 by ring; ring.
  all: assert (x1 <> 0) by nra; replace (x1 / x1) with 1 by (field; lra); rewrite ln_1; ring.
Qed.

Lemma tpar_1 i x1 x2 : i <> Histogram -> x1 < x2 ->
  (match i with LinLog | LogLog => 0 < x1 * x2 | _ => True end) -> tpar i x2 x1 x2 = 1.
Proof.
  intros Hi H H'. destruct i; cbn; try easy; unfold Rdiv at 1; apply Rinv_r; try lra.
  all: apply ln_ratio_ne; lra.
Qed.

Lemma ln_div_mono a b c : 0 < b / a -> 0 < c / a -> b / a <= c / a -> ln (b / a) <= ln (c / a).
Proof. intros Hb Hc [H|H]; [left; apply ln_increasing; assumption | right; f_equal; exact H]. Qed.

Lemma tpar_mono i x x' x1 x2 : x1 < x2 ->
  (match i with LinLog | LogLog => 0 < x1 * x2 | _ => True end) ->
  x1 <= x -> x <= x' -> x' <= x2 -> tpar i x x1 x2 <= tpar i x' x1 x2.
Proof.
  intros H H' Ha Hb Hc. destruct i; cbn; try lra.
  1,3: unfold Rdiv; apply Rmult_le_compat_r; [left; apply Rinv_0_lt_compat; lra | lra].
  all: assert (A : 0 < x / x1) by (apply same_sign_div; eapply same_sign_mid; eauto; lra);
    assert (B : 0 < x' / x1) by (apply same_sign_div; eapply same_sign_mid; eauto; lra);
    assert (C : 0 < x2 / x1) by (apply same_sign_div; assumption);
    assert (L2 := ln_ratio_ne x1 x2 H' ltac:(lra)).
  all: destruct (Rlt_dec 0 x1) as [P|P].
  1,3: assert (0 < ln (x2 / x1)) by
         (rewrite <- ln_1; apply ln_increasing; [lra|]; apply (Rmult_lt_reg_r x1); [lra|];
          replace (x2 / x1 * x1) with x2 by (field; lra); lra);
       unfold Rdiv at 1 3; apply Rmult_le_compat_r; [left; apply Rinv_0_lt_compat; assumption|];
       apply ln_div_mono; [assumption|assumption|];
       unfold Rdiv; apply Rmult_le_compat_r; [left; apply Rinv_0_lt_compat; lra|lra].
  all: assert (x1 < 0) by nra;
       assert (Q : x2 / x1 < 1) by
         (apply (Rmult_lt_reg_r (- x1)); [lra|]; replace (x2 / x1 * - x1) with (- x2) by (field; lra); lra);
       assert (M : ln (x2 / x1) < 0) by (rewrite <- ln_1; apply ln_increasing; lra);
       replace (ln (x / x1) / ln (x2 / x1)) with ((- ln (x / x1)) * / (- ln (x2 / x1))) by (field; lra);
       replace (ln (x' / x1) / ln (x2 / x1)) with ((- ln (x' / x1)) * / (- ln (x2 / x1))) by (field; lra);
       apply Rmult_le_compat_r; [left; apply Rinv_0_lt_compat; lra|];
       apply Ropp_le_contravar, ln_div_mono; [assumption|assumption|];
       apply (Rmult_le_reg_r (- x1)); [lra|];
       replace (x' / x1 * - x1) with (- x') by (field; lra);
       replace (x / x1 * - x1) with (- x) by (field; lra); lra.
Qed.

Lemma blend_0 i y1 y2 : blend i 0 y1 y2 = y1.
Proof. destruct i; cbn; rewrite ?Rmult_0_l, ?Rmult_0_r, ?exp_0; ring. Qed.

Lemma blend_1 i y1 y2 : i <> Histogram -> (match i with LogLin | LogLog => 0 < y1 * y2 | _ => True end) ->
  blend i 1 y1 y2 = y2.
Proof.
  intros Hi H. destruct i; cbn; try easy; try ring.
  all: rewrite Rmult_1_l, exp_ln by (apply same_sign_div; assumption); field; nra.
Qed.

Lemma exp_le_mono a b : a <= b -> exp a <= exp b.
Proof. intros [H|H]; [left; apply exp_increasing; exact H | right; f_equal; exact H]. Qed.

Lemma ln_le_mono a b : 0 < a -> a <= b -> ln a <= ln b.
Proof. intros Ha [H|H]; [left; apply ln_increasing; assumption | right; f_equal; exact H]. Qed.

Lemma blend_mono i t t' y1 y2 :
  (match i with LogLin | LogLog => 0 < y1 * y2 | _ => True end) -> t <= t' ->
  (y1 <= y2 -> blend i t y1 y2 <= blend i t' y1 y2) /\ (y2 <= y1 -> blend i t' y1 y2 <= blend i t y1 y2).
Proof.
  intros H Ht. destruct i; cbn; try (split; intros; nra).
  all: pose proof (same_sign_div _ _ H) as P; assert (y1 <> 0) by nra.
  all: assert (E : y2 = y2 / y1 * y1) by (field; assumption).
  all: destruct (Rlt_dec 0 y1) as [Q|Q]; split; intros G.
  all: assert (Q' : 0 < y1 \/ y1 < 0) by lra.
  (* sign of ln (y2/y1) *)
  all: first [ assert (0 <= ln (y2 / y1)) by (rewrite <- ln_1; apply ln_le_mono; [lra|]; nra);
               assert (exp (t * ln (y2/y1)) <= exp (t' * ln (y2/y1))) by (apply exp_le_mono; nra); nra
             | assert (ln (y2 / y1) <= 0) by (rewrite <- ln_1; apply ln_le_mono; [lra|]; nra);
               assert (exp (t' * ln (y2/y1)) <= exp (t * ln (y2/y1))) by (apply exp_le_mono; nra); nra ].
Qed.

Lemma interp_left i x1 y1 x2 y2 : valid_points i x1 y1 x2 y2 ->
  interpolate i x1 x1 y1 x2 y2 = y1.
Proof.
  intros H. pose proof H as (Hx & Hlx & Hly). rewrite interpolate_blend by (auto; lra).
  rewrite tpar_0 by assumption. apply blend_0.
Qed.

Lemma interp_right i x1 y1 x2 y2 : i <> Histogram -> valid_points i x1 y1 x2 y2 ->
  interpolate i x2 x1 y1 x2 y2 = y2.
Proof.
  intros Hi H. pose proof H as (Hx & Hlx & Hly). rewrite interpolate_blend by (auto; lra).
  rewrite tpar_1 by assumption. apply blend_1; assumption.
Qed.

Lemma interp_mono i x1 y1 x2 y2 x x' : valid_points i x1 y1 x2 y2 ->
  x1 <= x -> x <= x' -> x' <= x2 ->
  (y1 <= y2 -> interpolate i x x1 y1 x2 y2 <= interpolate i x' x1 y1 x2 y2) /\
  (y2 <= y1 -> interpolate i x' x1 y1 x2 y2 <= interpolate i x x1 y1 x2 y2).
Proof.
  intros H Ha Hb Hc. pose proof H as (Hx & Hlx & Hly). rewrite !interpolate_blend by (auto; lra).
  apply blend_mono; [assumption|]. apply tpar_mono; assumption.
Qed.

Lemma interp_between i x1 y1 x2 y2 x : valid_points i x1 y1 x2 y2 -> x1 <= x <= x2 ->
  Rmin y1 y2 <= interpolate i x x1 y1 x2 y2 <= Rmax y1 y2.
Proof.
  intros H [Ha Hb]. destruct i eqn:Ei.
  1: cbn; unfold histogram_interpolate; split; [apply Rmin_l | apply Rmax_l].
  all: rewrite <- Ei in *; assert (i <> Histogram) by (subst i; discriminate);
    pose proof H as (Hx & _ & _);
    pose proof (interp_left i _ _ _ _ H) as L; pose proof (interp_right i _ _ _ _ ltac:(assumption) H) as R;
    pose proof (interp_mono i _ _ _ _ x1 x H ltac:(lra) Ha Hb) as M1;
    pose proof (interp_mono i _ _ _ _ x x2 H Ha Hb ltac:(lra)) as M2;
    rewrite L in M1; rewrite R in M2; subst i;
    unfold Rmin, Rmax; destruct (Rle_dec y1 y2); lra.
Qed.

Lemma pos_sq_mul y e : y <> 0 -> 0 < e -> 0 < y * e * y.
Proof.
  intros Hy He. replace (y * e * y) with (e * Rsqr y) by (unfold Rsqr; ring).
  apply Rmult_lt_0_compat; [exact He | apply Rsqr_pos_lt; exact Hy].
Qed.

Lemma interp_on_curve i x1 y1 x2 y2 x : valid_points i x1 y1 x2 y2 -> x1 <= x <= x2 ->
  on_curve i x1 y1 x2 y2 x (interpolate i x x1 y1 x2 y2).
Proof.
  intros H Hx. rewrite interpolate_blend by assumption. destruct H as (H1 & H2 & H3).
  destruct i; cbn [on_curve blend tpar x_scale y_scale].
  - reflexivity.
  - split; [field; lra | trivial].
  - rewrite !ln_ratio_abs by (try assumption; eapply same_sign_mid; eauto).
    pose proof (ln_ratio_ne _ _ H2 ltac:(lra)) as L. rewrite ln_ratio_abs in L by assumption.
    split; [field; exact L | trivial].
  - assert (P := same_sign_div _ _ H3). assert (y1 <> 0) by nra.
    pose proof (exp_pos ((x - x1) / (x2 - x1) * ln (y2 / y1))) as E.
    split; [|apply pos_sq_mul; assumption].
    rewrite Rabs_mult, (Rabs_right (exp _)) by lra.
    rewrite ln_mult by (auto using Rabs_pos_lt). rewrite ln_exp, ln_ratio_abs by assumption.
    field; lra.
  - assert (P := same_sign_div _ _ H3). assert (y1 <> 0) by nra.
    pose proof (exp_pos (ln (x / x1) / ln (x2 / x1) * ln (y2 / y1))) as E.
    split; [|apply pos_sq_mul; assumption].
    rewrite Rabs_mult, (Rabs_right (exp _)) by lra.
    rewrite ln_mult by (auto using Rabs_pos_lt). rewrite ln_exp.
    rewrite !ln_ratio_abs by (try assumption; eapply same_sign_mid; eauto).
    pose proof (ln_ratio_ne _ _ H2 ltac:(lra)) as L. rewrite ln_ratio_abs in L by assumption.
    field; exact L.
Qed.

(** the curve of a law is a function: the specification determines the value *)
Lemma on_curve_unique i x1 y1 x2 y2 x y y' : valid_points i x1 y1 x2 y2 ->
  on_curve i x1 y1 x2 y2 x y -> on_curve i x1 y1 x2 y2 x y' -> y = y'.
Proof.
  intros (H1 & H2 & H3). destruct i; cbn.
  - congruence.
  - intros [E _] [E' _]. assert (y - y1 = y' - y1); [|lra].
    apply (Rmult_eq_reg_r (x2 - x1)); lra.
  - intros [E _] [E' _]. rewrite <- ln_ratio_abs in E, E' by assumption.
    pose proof (ln_ratio_ne _ _ H2 ltac:(lra)).
    assert (y - y1 = y' - y1); [|lra]. apply (Rmult_eq_reg_r (ln (x2 / x1))); lra.
  - intros [E P] [E' P'].
    assert (ln (Rabs y) = ln (Rabs y')) as L.
    { assert (ln (Rabs y) - ln (Rabs y1) = ln (Rabs y') - ln (Rabs y1)); [|lra].
      apply (Rmult_eq_reg_r (x2 - x1)); lra. }
    apply ln_inv in L; [|apply Rabs_pos_lt; nra|apply Rabs_pos_lt; nra].
    unfold Rabs in L. destruct (Rcase_abs y), (Rcase_abs y'); nra.
  - intros [E P] [E' P'].
    assert (ln (Rabs y) = ln (Rabs y')) as L.
    { rewrite <- (ln_ratio_abs x1 x2) in E, E' by assumption.
      pose proof (ln_ratio_ne _ _ H2 ltac:(lra)).
      assert (ln (Rabs y) - ln (Rabs y1) = ln (Rabs y') - ln (Rabs y1)); [|lra].
      apply (Rmult_eq_reg_r (ln (x2 / x1))); lra. }
    apply ln_inv in L; [|apply Rabs_pos_lt; nra|apply Rabs_pos_lt; nra].
    unfold Rabs in L. destruct (Rcase_abs y), (Rcase_abs y'); nra.
Qed.
