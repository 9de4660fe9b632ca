(** * Binary64: linear interpolation of nonnegative data is finite, nonnegative and accurate *)
From Coq Require Import Reals Lra Lia ZArith Bool.
From Flocq Require Import Core Relative Plus_error IEEE754.BinarySingleNaN.
From Flocq Require Import IEEE754.PrimFloat.
From Coq Require Import Floats Uint63.
From Verif Require Import Base NumF S_PickF M_Interp L_PickF.
Local Open Scope R_scope.

Local Notation rnd := (round radix2 (SpecFloat.fexp prec emax) (round_mode mode_NE)).
Local Notation fx := (SpecFloat.fexp prec emax).
Local Notation G := (generic_format radix2 fx).
Local Notation u := (bpow radix2 (-53)).
Local Notation eta0 := (bpow radix2 (-1075)).
Local Instance vfx' : Valid_exp fx. Proof. rewrite fx_FLT. apply FLT_exp_valid. reflexivity. Qed.

Lemma rnd_le x y : x <= y -> rnd x <= rnd y.
Proof. intros H. apply round_le; [exact vfx'|apply valid_rnd_round_mode|exact H]. Qed.
Lemma rnd_G x : G x -> rnd x = x.
Proof. intros H. apply round_generic; [apply valid_rnd_round_mode|exact H]. Qed.
Lemma rnd_le_G x y : G y -> x <= y -> rnd x <= y.
Proof. intros Gy H. rewrite <- (rnd_G y Gy). now apply rnd_le. Qed.
Lemma rnd_ge_G x y : G y -> y <= x -> y <= rnd x.
Proof. intros Gy H. rewrite <- (rnd_G y Gy). now apply rnd_le. Qed.
Lemma G_opp x : G x -> G (- x). Proof. apply generic_format_opp. Qed.
Lemma G_1 : G 1. Proof. apply (G_int 1). lia. Qed.

Lemma sum_err x y : G x -> G y -> exists e, Rabs e <= u /\ rnd (x + y) = (x + y) * (1 + e).
Proof.
  intros Gx Gy. rewrite fx_FLT in Gx, Gy. destruct (@FLT_plus_error_N_ex radix2 (-1074)%Z 53%Z (eq_refl : (0 < 53)%Z) (fun x => negb (Z.even x)) x y Gx Gy) as (e & He & Er).
  exists e. split.
  - eapply Rle_trans; [exact He|]. unfold u_ro. replace (/ 2 * bpow radix2 (- (53) + 1)) with u.
    + pose proof (bpow_gt_0 radix2 (-53)) as P. apply Rmult_le_reg_r with (1 + u); [lra|]. unfold Rdiv. rewrite Rmult_assoc, Rinv_l by lra. nra.
    + change (-53)%Z with (-1 + (-52))%Z. rewrite bpow_plus. reflexivity.
  - exact Er.
Qed.
Lemma diff_err x y : G x -> G y -> exists e, Rabs e <= u /\ rnd (x - y) = (x - y) * (1 + e).
Proof. intros Gx Gy. exact (sum_err x (- y) Gx (G_opp y Gy)). Qed.
Lemma any_err x : exists e h, Rabs e <= u /\ Rabs h <= eta0 /\ rnd x = x * (1 + e) + h.
Proof.
  destruct (error_N_FLT radix2 (-1074) 53 (eq_refl : (0 < 53)%Z) (fun x => negb (Z.even x)) x) as (e & h & He & Hh & _ & Er). exists e, h. split; [|split; [|exact Er]].
  - eapply Rle_trans; [exact He|]. right. change (-53)%Z with (-1 + (-52))%Z. rewrite (bpow_plus radix2 (-1) (-52)). reflexivity.
  - eapply Rle_trans; [exact Hh|]. right. change (-1075)%Z with (-1 + (-1074))%Z. rewrite (bpow_plus radix2 (-1) (-1074)). reflexivity.
Qed.
Lemma any_abs x m : Rabs x <= m -> Rabs (rnd x - x) <= u * m + eta0.
Proof.
  intros H. destruct (any_err x) as (e & h & He & Hh & ->). replace (x * (1 + e) + h - x) with (x * e + h) by ring. eapply Rle_trans; [apply Rabs_triang|].
  rewrite Rabs_mult. pose proof (Rabs_pos x). pose proof (Rabs_pos e). assert (Rabs x * Rabs e <= m * u) by (apply Rmult_le_compat; assumption). lra.
Qed.
Lemma sum_abs x y m : G x -> G y -> Rabs (x + y) <= m -> Rabs (rnd (x + y) - (x + y)) <= u * m.
Proof.
  intros Gx Gy H. destruct (sum_err x y Gx Gy) as (e & He & ->). replace ((x + y) * (1 + e) - (x + y)) with ((x + y) * e) by ring. rewrite Rabs_mult.
  pose proof (Rabs_pos (x + y)). pose proof (Rabs_pos e). rewrite Rmult_comm. apply Rmult_le_compat; assumption.
Qed.
Lemma u_small : 0 < u <= / 1000000.
Proof. split; [apply bpow_gt_0|]. change u with (/ IZR (2 ^ 53)). apply Rinv_le; [lra|]. apply IZR_le. lia. Qed.
Lemma eta_small : 0 < eta0 <= u.
Proof. split; [apply bpow_gt_0|apply bpow_le; lia]. Qed.

(** the ratio of two rounded differences *)
Lemma ratio x x1 x2 : G x -> G x1 -> G x2 -> x1 <= x <= x2 -> x1 < x2 ->
  let r := rnd (rnd (x - x1) / rnd (x2 - x1)) in 0 <= rnd (x - x1) <= rnd (x2 - x1) /\ 0 < rnd (x2 - x1) /\ 0 <= r <= 1 /\ Rabs (r - (x - x1) / (x2 - x1)) <= 5 * u.
Proof.
  intros Gx G1 G2 H L. cbv zeta. pose proof u_small as [U0 U1]. pose proof eta_small as [E0 E1].
  destruct (diff_err x x1 Gx G1) as (e1 & H1 & R1). destruct (diff_err x2 x1 G2 G1) as (e2 & H2 & R2).
  assert (B1 : - u <= e1 <= u) by (apply Rabs_le_inv; exact H1). assert (B2 : - u <= e2 <= u) by (apply Rabs_le_inv; exact H2).
  assert (P2 : 0 < rnd (x2 - x1)) by (rewrite R2; apply Rmult_lt_0_compat; lra).
  assert (P1 : 0 <= rnd (x - x1)) by (rewrite R1; apply Rmult_le_pos; lra).
  assert (P3 : rnd (x - x1) <= rnd (x2 - x1)) by (apply rnd_le; lra).
  set (A := rnd (x - x1)) in *. set (B := rnd (x2 - x1)) in *.
  assert (Q : 0 <= A / B <= 1).
  { split; [apply Rmult_le_pos; [exact P1|apply Rlt_le, Rinv_0_lt_compat; exact P2]|]. apply Rmult_le_reg_r with B; [exact P2|]. unfold Rdiv. rewrite Rmult_assoc, Rinv_l by lra. lra. }
  split; [lra|]. split; [exact P2|]. split.
  - split; [apply rnd_ge_G; [apply G0|apply Q]|apply rnd_le_G; [apply G_1|apply Q]].
  - set (t := (x - x1) / (x2 - x1)). assert (T : 0 <= t <= 1).
    { unfold t. split; [apply Rmult_le_pos; [lra|apply Rlt_le, Rinv_0_lt_compat; lra]|]. apply Rmult_le_reg_r with (x2 - x1); [lra|]. unfold Rdiv. rewrite Rmult_assoc, Rinv_l by lra. lra. }
    assert (AB : A / B = t * ((1 + e1) / (1 + e2))) by (unfold t; rewrite R1, R2; field; lra).
    assert (D : Rabs (A / B - t) <= 3 * u).
    { rewrite AB. replace (t * ((1 + e1) / (1 + e2)) - t) with (t * ((e1 - e2) / (1 + e2))) by (field; lra).
      rewrite Rabs_mult, (Rabs_pos_eq t) by lra. assert (W : Rabs ((e1 - e2) / (1 + e2)) <= 3 * u).
      { unfold Rdiv. rewrite Rabs_mult, Rabs_inv, (Rabs_pos_eq (1 + e2)) by lra. apply Rmult_le_reg_r with (1 + e2); [lra|]. rewrite Rmult_assoc, Rinv_l by lra.
        assert (Rabs (e1 - e2) <= 2 * u) by (apply Rabs_le; lra). nra. }
      pose proof (Rabs_pos ((e1 - e2) / (1 + e2))). nra. }
    pose proof (any_abs (A / B) 1 ltac:(rewrite Rabs_pos_eq; lra)) as W.
    replace (rnd (A / B) - t) with ((rnd (A / B) - A / B) + (A / B - t)) by ring. eapply Rle_trans; [apply Rabs_triang|]. lra.
Qed.
(** the whole formula, on real numbers *)
Lemma lin_round x x1 y1 x2 y2 : G x -> G x1 -> G x2 -> G y1 -> G y2 -> x1 <= x <= x2 -> x1 < x2 -> 0 <= y1 -> 0 <= y2 ->
  let M := Rmax y1 y2 in let r := rnd (rnd (x - x1) / rnd (x2 - x1)) in let D := rnd (y2 - y1) in let p := rnd (r * D) in
  Rabs D <= M /\ Rabs p <= M /\ 0 <= rnd (p + y1) <= (1 + 4 * u) * M /\ Rabs (rnd (p + y1) - ((x - x1) / (x2 - x1) * (y2 - y1) + y1)) <= 9 * u * M + eta0 /\
  (y1 <= y2 -> y1 <= rnd (p + y1)) /\ (y2 <= y1 -> rnd (p + y1) <= y1).
Proof.
  intros Gx G1 G2 Gy1 Gy2 H L Y1 Y2. cbv zeta. destruct (ratio x x1 x2 Gx G1 G2 H L) as (RA & RB & RR & RE). pose proof u_small as [U0 U1]. pose proof eta_small as [E0 E1].
  set (r := rnd (rnd (x - x1) / rnd (x2 - x1))) in *. set (M := Rmax y1 y2). set (t := (x - x1) / (x2 - x1)) in *.
  assert (M1 : y1 <= M) by apply Rmax_l. assert (M2 : y2 <= M) by apply Rmax_r. assert (GM : G M) by (unfold M, Rmax; destruct (Rle_dec y1 y2); assumption).
  assert (D1 : - y1 <= rnd (y2 - y1)) by (apply rnd_ge_G; [apply G_opp; exact Gy1|lra]). assert (D2 : rnd (y2 - y1) <= y2) by (apply rnd_le_G; [exact Gy2|lra]).
  set (D := rnd (y2 - y1)) in *.
  assert (AD : Rabs D <= M) by (apply Rabs_le; lra).
  assert (RD : - y1 <= r * D <= y2) by (split; destruct (Rle_or_lt 0 D); nra).
  assert (GD : G D) by (apply generic_format_round; [exact vfx'|apply valid_rnd_round_mode]).
  assert (P1 : - y1 <= rnd (r * D)) by (apply rnd_ge_G; [apply G_opp; exact Gy1|lra]). assert (P2 : rnd (r * D) <= y2) by (apply rnd_le_G; [exact Gy2|lra]).
  assert (Gp : G (rnd (r * D))) by (apply generic_format_round; [exact vfx'|apply valid_rnd_round_mode]).
  set (p := rnd (r * D)) in *.
  assert (T : 0 <= t <= 1).
  { unfold t. split; [apply Rmult_le_pos; [lra|apply Rlt_le, Rinv_0_lt_compat; lra]|]. apply Rmult_le_reg_r with (x2 - x1); [lra|]. unfold Rdiv. rewrite Rmult_assoc, Rinv_l by lra. lra. }
  split; [exact AD|]. split; [apply Rabs_le; lra|].
  pose proof (sum_abs p y1 (2 * M) Gp Gy1 ltac:(apply Rabs_le; lra)) as Ev.
  assert (ED : Rabs (D - (y2 - y1)) <= u * M).
  { unfold D. exact (sum_abs y2 (- y1) M Gy2 (G_opp _ Gy1) ltac:(apply Rabs_le; lra)). }
  assert (Ep : Rabs (p - r * D) <= u * M + eta0) by (apply any_abs; apply Rabs_le; lra).
  assert (E : Rabs (r * D - t * (y2 - y1)) <= 6 * u * M).
  { replace (r * D - t * (y2 - y1)) with ((r - t) * D + t * (D - (y2 - y1))) by ring. eapply Rle_trans; [apply Rabs_triang|]. rewrite !Rabs_mult, (Rabs_pos_eq t) by lra.
    assert (Rabs (r - t) * Rabs D <= 5 * u * M) by (apply Rmult_le_compat; [apply Rabs_pos|apply Rabs_pos|exact RE|exact AD]).
    assert (t * Rabs (D - (y2 - y1)) <= 1 * (u * M)) by (apply Rmult_le_compat; [lra|apply Rabs_pos|lra|exact ED]). lra. }
  assert (GDsgn : y1 <= y2 -> 0 <= D) by (intros Q; apply rnd_ge_G; [apply G0|lra]).
  assert (GDsgn' : y2 <= y1 -> D <= 0) by (intros Q; apply rnd_le_G; [apply G0|lra]).
  split; [split|split; [|split]].
  - apply rnd_ge_G; [apply G0|lra].
  - assert (M0 : 0 <= M) by lra. destruct (Rle_or_lt y1 y2) as [Q|Q].
    + assert (K1 : r * D <= D) by (specialize (GDsgn Q); nra). assert (K2 : p <= D) by (apply rnd_le_G; assumption).
      assert (K3 : Rabs (p + y1) <= (1 + u) * M). { apply Rabs_le. apply Rabs_le_inv in ED. nra. }
      pose proof (sum_abs p y1 _ Gp Gy1 K3) as W. apply Rabs_le_inv in W. apply Rabs_le_inv in K3. nra.
    + assert (p <= 0) by (apply rnd_le_G; [apply G0|]; specialize (GDsgn' ltac:(lra)); nra). assert (rnd (p + y1) <= y1) by (apply rnd_le_G; [exact Gy1|lra]). nra.
  - replace (rnd (p + y1) - (t * (y2 - y1) + y1)) with ((rnd (p + y1) - (p + y1)) + (p - r * D) + (r * D - t * (y2 - y1))) by ring.
    eapply Rle_trans; [apply Rabs_triang|]. pose proof (Rabs_triang (rnd (p + y1) - (p + y1)) (p - r * D)). lra.
  - intros Q. apply rnd_ge_G; [exact Gy1|]. assert (0 <= p) by (apply rnd_ge_G; [apply G0|]; specialize (GDsgn Q); nra). lra.
  - intros Q. apply rnd_le_G; [exact Gy1|]. assert (p <= 0) by (apply rnd_le_G; [apply G0|]; specialize (GDsgn' Q); nra). lra.
Qed.

(** ** doubles *)
Lemma sub_BR x y : fin x -> fin y -> Rabs (rnd (BR x - BR y)) < bpow radix2 emax -> BR (x - y) = rnd (BR x - BR y) /\ fin (x - y).
Proof.
  intros Fx Fy H. unfold BR, fin. rewrite sub_equiv. pose proof (Bminus_correct prec emax Hprec Hmax mode_NE (Prim2B x) (Prim2B y) Fx Fy) as M.
  rewrite Rlt_bool_true in M by exact H. destruct M as [M1 [M2 _]]. split; [exact M1|]. exact M2.
Qed.
Lemma div_BR x y : fin x -> BR y <> 0 -> Rabs (rnd (BR x / BR y)) < bpow radix2 emax -> BR (x / y) = rnd (BR x / BR y) /\ fin (x / y).
Proof.
  intros Fx Hy H. unfold BR, fin. rewrite div_equiv. pose proof (Bdiv_correct prec emax Hprec Hmax mode_NE (Prim2B x) (Prim2B y) Hy) as M.
  rewrite Rlt_bool_true in M by exact H. destruct M as [M1 [M2 _]]. split; [exact M1|]. rewrite M2. exact Fx.
Qed.
Lemma BR_lt_emax x : Rabs (BR x) < bpow radix2 emax.
Proof. apply abs_B2R_lt_emax. Qed.

Lemma lin_F x x1 y1 x2 y2 : fin x -> fin x1 -> fin x2 -> fin y1 -> fin y2 -> 0 <= BR x1 -> BR x1 <= BR x <= BR x2 -> BR x1 < BR x2 ->
  0 <= BR y1 <= bpow radix2 1023 -> 0 <= BR y2 <= bpow radix2 1023 ->
  let v := ((x - x1) / (x2 - x1) * (y2 - y1) + y1)%float in
  fin v /\ 0 <= BR v <= (1 + 4 * u) * Rmax (BR y1) (BR y2) /\ (BR y1 <= BR y2 -> BR y1 <= BR v) /\ (BR y2 <= BR y1 -> BR v <= BR y1) /\
  Rabs (BR v - ((BR x - BR x1) / (BR x2 - BR x1) * (BR y2 - BR y1) + BR y1)) <= 9 * u * Rmax (BR y1) (BR y2) + eta0.
Proof.
  intros Fx F1 F2 Fy1 Fy2 P H L Y1 Y2. cbv zeta.
  destruct (ratio _ _ _ (G_BR x) (G_BR x1) (G_BR x2) H L) as (RA & RB & RR & RE).
  destruct (lin_round _ _ _ _ _ (G_BR x) (G_BR x1) (G_BR x2) (G_BR y1) (G_BR y2) H L (proj1 Y1) (proj1 Y2)) as (LD & Lp & Lv & LE & Lu & Ll).
  pose proof u_small as [U0 U1]. pose proof (BR_lt_emax x2) as Bx. rewrite Rabs_pos_eq in Bx by lra.
  assert (X2 : rnd (BR x2 - BR x1) <= BR x2) by (apply rnd_le_G; [apply G_BR|lra]).
  destruct (sub_BR x x1 Fx F1) as [A1 A2]; [rewrite Rabs_pos_eq by lra; lra|]. destruct (sub_BR x2 x1 F2 F1) as [B1 B2]; [rewrite Rabs_pos_eq by lra; lra|].
  assert (big1 : 1 < bpow radix2 emax) by (change 1 with (bpow radix2 0); apply bpow_lt; reflexivity).
  destruct (div_BR (x - x1)%float (x2 - x1)%float A2) as [D1 D2]; [rewrite B1; lra|rewrite A1, B1; rewrite Rabs_pos_eq by apply RR; eapply Rle_lt_trans; [apply RR|exact big1]|]. rewrite A1, B1 in D1.
  assert (MM : Rmax (BR y1) (BR y2) <= bpow radix2 1023) by (apply Rmax_lub; lra).
  assert (E23 : bpow radix2 emax = 2 * bpow radix2 1023) by (change emax with (1 + 1023)%Z; rewrite (bpow_plus radix2 1 1023); reflexivity).
  assert (P23 : 0 < bpow radix2 1023) by apply bpow_gt_0.
  destruct (sub_BR y2 y1 Fy2 Fy1) as [C1 C2]; [eapply Rle_lt_trans; [exact LD|lra]|].
  destruct (mul_BR ((x - x1) / (x2 - x1))%float (y2 - y1)%float D2 C2) as [M1 M2]; [rewrite D1, C1; eapply Rle_lt_trans; [exact Lp|lra]|]. rewrite D1, C1 in M1.
  assert (M0 : 0 <= Rmax (BR y1) (BR y2)) by (eapply Rle_trans; [|apply Rmax_l]; lra).
  destruct (add_BR ((x - x1) / (x2 - x1) * (y2 - y1))%float y1 M2 Fy1) as [V1 V2]; [rewrite M1, Rabs_pos_eq by apply Lv; eapply Rle_lt_trans; [apply Lv|nra]|]. rewrite M1 in V1.
  split; [exact V2|]. rewrite V1. split; [exact Lv|]. split; [exact Lu|]. split; [exact Ll|]. exact LE.
Qed.
