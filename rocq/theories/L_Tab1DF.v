(** * Tabulated1D: concrete cases *)
From Coquelicot Require Import Coquelicot.
From Verif Require Import Base NumR NumF M_Interp M_Tab1D S_Interp S_Tab1D L_Search L_SearchR L_Tab1D L_Tab1DR L_Tab1DI.
Local Open Scope R_scope.

Lemma valid_breakpoints_example : valid_breakpoints [2; 4]%Z (sizeZ [0; 1; 2; 3]) /\
  segment_law [2; 4]%Z [LinLin; LogLog] 0 = Some LinLin /\ segment_law [2; 4]%Z [LinLin; LogLog] 1 = Some LogLog.
Proof. repeat split; try discriminate; cbn; lia. Qed.
Lemma tab_float_example : forall lm, exists t,
  @make_tab _ (NumF lm) [2; 4]%Z [LinLin; LogLog] [0.5; 1; 2; 3]%float [5; 6; 7; 7.5]%float = Ok t.
Proof. intros. eexists. vm_compute. reflexivity. Qed.
Lemma histogram_grid_point : forall lm,
  (let! t := @make_tab1 _ (NumF lm) Histogram [0; 1; 2]%float [5; 6; 7]%float in @tab_eval _ (NumF lm) t 1%float)
  = Ok 5%float.
Proof. intros. vm_compute. reflexivity. Qed.
Lemma jump_integral_nan : forall lm,
  exists t r, @make_tab _ (NumF lm) [4]%Z [LinLin] [0; 1; 1; 2]%float [1; 1; 2; 2]%float = Ok t /\
              @tab_integrate _ (NumF lm) t 0%float 2%float = Ok r /\ PrimFloat.is_nan r = true.
Proof. intros. eexists. eexists. split; [vm_compute; reflexivity|]. split; vm_compute; reflexivity. Qed.
Lemma make_tab_float_safe lm NBT INT (x y : list float) :
  valid_breakpoints NBT (sizeZ x) -> (sizeZ x < 2 ^ 64)%Z ->
  @make_tab _ (NumF lm) NBT INT x y = Throw \/ exists t, @make_tab _ (NumF lm) NBT INT x y = Ok t.
Proof.
  intros H B. destruct (@make_tab_cases _ (NumF lm) NBT INT x y H B) as [E|(rs & E & _)]; [left; exact E|right; eauto].
Qed.
Lemma breakpoint_beyond_UB : forall lm,
  @make_tab _ (NumF lm) [3]%Z [LinLin] [0; 1]%float [0; 1]%float = UB.
Proof. intros. vm_compute. reflexivity. Qed.
Lemma no_breakpoints_UB : forall lm,
  exists t, @make_tab _ (NumF lm) [] [] [0; 1]%float [0; 1]%float = Ok t /\ @tab_eval _ (NumF lm) t 0.5%float = UB.
Proof. intros. eexists. split; vm_compute; reflexivity. Qed.

Lemma integrable_example : integrable_segments [2; 4]%Z [LinLin; LogLog] [1; 2; 3; 4] [5; 6; 7; 8] /\
  valid_breakpoints [2; 4]%Z (sizeZ [1; 2; 3; 4]) /\
  exists t, make_tab [2; 4]%Z [LinLin; LogLog] [1; 2; 3; 4] [5; 6; 7; 8] = Ok t.
Proof.
  assert (LE : forall a b c d, 0 < a < b -> 0 < c < d -> exact_integral_data LogLog a c b d).
  { intros a b c d Hab Hcd. unfold exact_integral_data. right.
    assert (0 < ln (d / c)) by (rewrite <- ln_1; apply ln_increasing; [lra|]; apply Rmult_lt_reg_r with c; [lra|]; field_simplify; lra).
    assert (0 < ln (b / a)) by (rewrite <- ln_1; apply ln_increasing; [lra|]; apply Rmult_lt_reg_r with a; [lra|]; field_simplify; lra).
    assert (0 < ln (d / c) / ln (b / a)) by (apply Rdiv_lt_0_compat; assumption).
    rewrite Rabs_pos_eq; lra. }
  split; [|split].
  - intros j Hj Hj1. change (sizeZ [1; 2; 3; 4]%R) with 4%Z in Hj1. left.
    assert (j = 0 \/ j = 1 \/ j = 2)%Z as [->|[->| ->]] by lia.
    + exists LinLin. unfold getR; cbn -[exact_integral_data]; change (Pos.to_nat 1) with 1%nat; cbn. repeat split; lra.
    + exists LogLog. unfold getR; cbn -[exact_integral_data]; change (Pos.to_nat 1) with 1%nat; change (Pos.to_nat 2) with 2%nat; change (Pos.to_nat 3) with 3%nat; cbn -[exact_integral_data]. split; [reflexivity|]. split; [repeat split; lra|]. apply LE; lra.
    + exists LogLog. unfold getR; cbn -[exact_integral_data]; change (Pos.to_nat 1) with 1%nat; change (Pos.to_nat 2) with 2%nat; change (Pos.to_nat 3) with 3%nat; cbn -[exact_integral_data]. split; [reflexivity|]. split; [repeat split; lra|]. apply LE; lra.
  - split; [discriminate|]. cbn. lia.
  - reval. eexists; reflexivity.
Qed.
