(** * Binary64: cosines of thermal scattering.  Interpolation stays in [-1,1]; smearing within its bin stays in [-1,1] *)
From Coq Require Import Reals Lra Lia ZArith Bool Psatz.
From Flocq Require Import Core Relative Plus_error IEEE754.BinarySingleNaN.
From Flocq Require Import IEEE754.PrimFloat.
From Coq Require Import Floats Uint63.
From Verif Require Import Base NumF S_PickF M_Interp L_PickF L_LinF.
Local Open Scope R_scope.

Local Notation rnd := (round radix2 (SpecFloat.fexp prec emax) (round_mode mode_NE)).
Local Notation fx := (SpecFloat.fexp prec emax).
Local Notation G := (generic_format radix2 fx).
Local Notation u := (bpow radix2 (-53)).
Local Instance vfx2 : Valid_exp fx. Proof. rewrite fx_FLT. apply FLT_exp_valid. reflexivity. Qed.

(** half a unit in the last place of anything up to 2^e *)
Lemma half_ulp x e : (-1000 <= e)%Z -> Rabs x <= bpow radix2 e -> Rabs (rnd x - x) <= bpow radix2 (e - 54).
Proof.
  intros He H. pose proof (bpow_gt_0 radix2 (e - 54)) as P. destruct (Req_dec x 0) as [->|N].
  { rewrite round_0 by apply valid_rnd_round_mode. rewrite Rminus_0_r, Rabs_R0. lra. }
  destruct (Rle_lt_or_eq_dec _ _ H) as [L|Q].
  - eapply Rle_trans; [apply error_le_half_ulp; exact vfx2|]. rewrite ulp_neq_0 by exact N. unfold cexp.
    assert (M : (mag radix2 x <= e)%Z) by (apply mag_le_bpow; assumption). rewrite fx_FLT. unfold FLT_exp.
    apply Rle_trans with (/ 2 * bpow radix2 (e - 53)).
    + apply Rmult_le_compat_l; [lra|]. apply bpow_le. lia.
    + right. replace (e - 54)%Z with (-1 + (e - 53))%Z by lia. rewrite (bpow_plus radix2 (-1)). reflexivity.
  - assert (Gx : G x).
    { assert (GB : G (bpow radix2 e)) by (apply generic_format_bpow; rewrite fx_FLT; unfold FLT_exp; lia). unfold Rabs in Q. destruct (Rcase_abs x); [replace x with (- bpow radix2 e) by lra; apply generic_format_opp, GB|rewrite Q; exact GB]. }
    rewrite rnd_G by exact Gx. rewrite Rminus_diag_eq by reflexivity. rewrite Rabs_R0. lra.
Qed.
Lemma rnd_opp x : rnd (- x) = - rnd x.
Proof. apply round_NE_opp. Qed.
Lemma bp e : bpow radix2 e = bpow radix2 e. Proof. reflexivity. Qed.
Lemma u_val : u = / 9007199254740992. Proof. reflexivity. Qed.
Lemma b54_val : bpow radix2 (-54) = / 18014398509481984. Proof. reflexivity. Qed.
Lemma b52_val : bpow radix2 (-52) = / 4503599627370496. Proof. reflexivity. Qed.
(** halfway above one rounds to one *)
Lemma tie_one : rnd (1 + u) = 1.
Proof.
  set (h := 0x1p-53%float). assert (Fh : fin h) by reflexivity.
  assert (Bh : BR h = u).
  { unfold BR, h. unfold Prim2B. rewrite B2R_SF2B. change (SF2R radix2 (Prim2SF 0x1p-53)) with (F2R (Float radix2 4503599627370496 (-105))). unfold F2R. cbn [Fnum Fexp].
    change 4503599627370496%Z with (2 ^ 52)%Z. change (IZR (2 ^ 52)) with (bpow radix2 52). rewrite <- bpow_plus. reflexivity. }
  destruct one_BR as [B1 F1].
  assert (R1 : Rabs (rnd (1 + u)) < bpow radix2 emax).
  { apply Rle_lt_trans with 2; [|change (bpow radix2 emax) with (IZR (2 ^ 1024)); apply IZR_lt; reflexivity]. pose proof u_small as [U0 U1].
    rewrite Rabs_pos_eq; [apply rnd_le_G; [apply (G_int 2); lia|lra]|apply rnd_ge_G; [apply G0|lra]]. }
  destruct (add_BR 1 h F1 Fh) as [E _]; [rewrite B1, Bh; exact R1|]. rewrite B1, Bh in E. rewrite <- E. change (1 + h)%float with 1%float. exact B1.
Qed.
Lemma below_tie x : x <= 1 + u -> rnd x <= 1.
Proof. intros H. rewrite <- tie_one. apply rnd_le, H. Qed.
Lemma above_tie x : - 1 - u <= x -> - 1 <= rnd x.
Proof. intros H. assert (- rnd x <= 1); [|lra]. rewrite <- rnd_opp. apply below_tie. lra. Qed.

Definition cosR (x : R) : Prop := -1 <= x <= 1.
(** the library's interpolation a + f (b - a) *)
Definition lerpR (a b f : R) : R := rnd (a + rnd (f * rnd (b - a))).
Lemma lerp_opp a b f : lerpR (- a) (- b) f = - lerpR a b f.
Proof.
  unfold lerpR. replace (- b - - a) with (- (b - a)) by ring. rewrite rnd_opp. replace (f * - rnd (b - a)) with (- (f * rnd (b - a))) by ring. rewrite rnd_opp.
  replace (- a + - rnd (f * rnd (b - a))) with (- (a + rnd (f * rnd (b - a)))) by ring. apply rnd_opp.
Qed.
Lemma lerp_upper a b f : G a -> cosR a -> cosR b -> 0 <= f <= 1 -> lerpR a b f <= 1.
Proof.
  intros Ga [A1 A2] [B1 B2] F. unfold lerpR. set (D := rnd (b - a)). destruct (Rle_dec 0 D) as [P|P].
  - assert (T : rnd (f * D) <= D) by (apply rnd_le_G; [apply generic_format_round; [exact vfx2|apply valid_rnd_round_mode]|nra]).
    assert (DD : D <= rnd (1 - a)) by (apply rnd_le; lra).
    pose proof (half_ulp (1 - a) 1 ltac:(lia)) as E. change (bpow radix2 1) with 2 in E. specialize (E ltac:(apply Rabs_le; lra)). apply Rabs_le_inv in E. change (1 - 54)%Z with (-53)%Z in E.
    apply below_tie. lra.
  - assert (T : rnd (f * D) <= 0) by (apply rnd_le_G; [apply G0|nra]). apply Rle_trans with (rnd a); [apply rnd_le; lra|rewrite rnd_G by exact Ga; exact A2].
Qed.
Lemma lerp_in a b f : G a -> cosR a -> cosR b -> 0 <= f <= 1 -> cosR (lerpR a b f).
Proof.
  intros Ga A B F. split; [|apply lerp_upper; assumption]. assert (- lerpR a b f <= 1); [|lra]. rewrite <- lerp_opp. apply lerp_upper; [apply G_opp, Ga| | |exact F]; unfold cosR in *; lra.
Qed.
Lemma lerp_err a b f : cosR a -> cosR b -> 0 <= f <= 1 -> Rabs (lerpR a b f - (a + f * (b - a))) <= 3 * u.
Proof.
  intros A B F. unfold cosR in *. unfold lerpR. pose proof u_small as [U0 U1].
  pose proof (half_ulp (b - a) 1 ltac:(lia)) as E1. change (bpow radix2 1) with 2 in E1. change (1 - 54)%Z with (-53)%Z in E1. specialize (E1 ltac:(apply Rabs_le; lra)).
  assert (D2 : -2 <= rnd (b - a) <= 2) by (split; [apply rnd_ge_G; [apply (G_int (-2)); lia|lra]|apply rnd_le_G; [apply (G_int 2); lia|lra]]). set (D := rnd (b - a)) in *.
  pose proof (half_ulp (f * D) 1 ltac:(lia)) as E2. change (bpow radix2 1) with 2 in E2. change (1 - 54)%Z with (-53)%Z in E2. specialize (E2 ltac:(apply Rabs_le; nra)).
  assert (T2 : -2 <= rnd (f * D) <= 2) by (split; [apply rnd_ge_G; [apply (G_int (-2)); lia|nra]|apply rnd_le_G; [apply (G_int 2); lia|nra]]). set (t := rnd (f * D)) in *.
  apply Rabs_le_inv in E1. apply Rabs_le_inv in E2.
  assert (X : -2 <= a + t <= 2).
  { assert (- u <= f * (D - (b - a)) <= u) by nra. assert (-1 <= a + f * (b - a) <= 1) by nra. lra. }
  pose proof (half_ulp (a + t) 1 ltac:(lia)) as E3. change (bpow radix2 1) with 2 in E3. change (1 - 54)%Z with (-53)%Z in E3. specialize (E3 ltac:(apply Rabs_le; lra)). apply Rabs_le_inv in E3.
  assert (- u <= f * (D - (b - a)) <= u) by nra. apply Rabs_le. nra.
Qed.

(** ** the sampled cosine moves at most half way to its nearer neighbour *)
Lemma succ_gap y : 1 <= y -> G y -> y + 2 * u <= Ulp.succ radix2 fx y.
Proof.
  intros H Gy. rewrite (Ulp.succ_eq_pos radix2 fx) by lra. apply Rplus_le_compat_l.
  assert (Q : Ulp.ulp radix2 fx 1 = 2 * u).
  { rewrite Ulp.ulp_neq_0 by lra. unfold cexp. rewrite fx_FLT. unfold FLT_exp. change 1 with (bpow radix2 0). rewrite mag_bpow.
    change (Z.max (0 + 1 - 53) (-1074)) with (1 + -53)%Z. rewrite bpow_plus. change (bpow radix2 1) with 2. reflexivity. }
  rewrite <- Q. apply Ulp.ulp_le_pos; [exact vfx2|rewrite fx_FLT; apply FLT_exp_monotone|lra|exact H].
Qed.
Lemma below_mid x y : 1 <= y -> G y -> x < y + u -> rnd x <= y.
Proof.
  intros H Gy L. apply round_N_le_midp; [exact vfx2|exact Gy|]. pose proof (succ_gap y H Gy). lra.
Qed.
Lemma G_scale m e : (-1000 <= e <= 0)%Z -> (0 <= m <= 2 ^ 53)%Z -> G (IZR m * bpow radix2 e).
Proof.
  intros B H. assert (C : (m = 2 ^ 53 \/ m < 2 ^ 53)%Z) by lia. destruct C as [->|L].
  { change (IZR (2 ^ 53)) with (bpow radix2 53). rewrite <- bpow_plus. apply generic_format_bpow. rewrite fx_FLT. unfold FLT_exp. lia. }
  change (IZR m * bpow radix2 e) with (F2R (Float radix2 m e)). apply generic_format_F2R. cbn [Fnum Fexp]. intros N. unfold cexp. rewrite fx_FLT. unfold FLT_exp.
  assert (M : (mag radix2 (F2R (Float radix2 m e)) <= 53 + e)%Z); [|lia]. apply mag_le_bpow; [apply F2R_neq_0; exact N|].
  unfold F2R. cbn [Fnum Fexp]. rewrite Rabs_pos_eq by (apply Rmult_le_pos; [apply IZR_le; lia|apply bpow_ge_0]).
  rewrite bpow_plus. apply Rmult_lt_compat_r; [apply bpow_gt_0|]. change (bpow radix2 53) with (IZR (2 ^ 53)). apply IZR_lt. exact L.
Qed.
(** doubles from one half up to one are multiples of 2^-53 *)
Lemma multiple x : G x -> / 2 <= x <= 1 -> exists m, (0 <= m <= 2 ^ 53)%Z /\ x = IZR m * u.
Proof.
  intros Gx H. destruct (Req_dec x 1) as [->|N].
  { exists (2 ^ 53)%Z. split; [lia|]. rewrite u_val. change (IZR (2 ^ 53)) with 9007199254740992. field. }
  assert (M : mag radix2 x = 0%Z :> Z).
  { apply mag_unique_pos. change (bpow radix2 (0 - 1)) with (/ 2). change (bpow radix2 0) with 1. lra. }
  exists (Ztrunc (scaled_mantissa radix2 fx x)).
  assert (E : x = IZR (Ztrunc (scaled_mantissa radix2 fx x)) * u).
  { unfold generic_format in Gx. rewrite Gx at 1. unfold F2R, cexp. cbn [Fnum Fexp]. rewrite M. reflexivity. }
  split; [|exact E]. rewrite E in H. rewrite u_val in H. split; [apply le_IZR; lra|]. apply le_IZR. change (IZR (2 ^ 53)) with 9007199254740992. lra.
Qed.
Lemma two_u : bpow radix2 (-52) = 2 * u.
Proof. change (-52)%Z with (1 + -53)%Z. rewrite bpow_plus. reflexivity. Qed.
Lemma edge mu : G mu -> 0 <= mu <= 1 -> rnd (rnd (1 + rnd (1 - mu)) - mu) <= 2 * (1 - mu) + 2 * u.
Proof.
  intros Gm H. set (A := rnd (1 - mu)). pose proof u_small as [U0 U1].
  assert (A0 : 0 <= A <= 1) by (split; [apply rnd_ge_G; [apply G0|lra]|apply rnd_le_G; [apply G_1|lra]]).
  set (b := rnd (1 + A)). assert (Bb : 1 <= b <= 2) by (split; [apply rnd_ge_G; [apply G_1|lra]|apply rnd_le_G; [apply (G_int 2); lia|lra]]).
  pose proof (half_ulp (1 + A) 1 ltac:(lia)) as E1. change (bpow radix2 1) with 2 in E1. change (1 - 54)%Z with (-53)%Z in E1. specialize (E1 ltac:(apply Rabs_le; lra)). apply Rabs_le_inv in E1. fold b in E1.
  pose proof (half_ulp (b - mu) 1 ltac:(lia)) as E2. change (bpow radix2 1) with 2 in E2. change (1 - 54)%Z with (-53)%Z in E2. specialize (E2 ltac:(apply Rabs_le; lra)). apply Rabs_le_inv in E2.
  destruct (Rle_dec (/ 2) mu) as [Q|Q].
  - assert (EA : A = 1 - mu).
    { apply rnd_G. destruct (multiple mu Gm ltac:(lra)) as (m & Hm & ->). replace (1 - IZR m * u) with (IZR (2 ^ 53 - m) * u).
      - apply G_scale; lia.
      - rewrite minus_IZR, u_val. change (IZR (2 ^ 53)) with 9007199254740992. field. }
    lra.
  - destruct (Rle_dec A (1 - mu)) as [L|L]; [lra|]. assert (AH : / 2 <= A).
    { apply rnd_ge_G; [|lra]. replace (/ 2) with (IZR 1 * bpow radix2 (-1)); [apply G_scale; lia|]. change (bpow radix2 (-1)) with (/ 2). lra. }
    assert (GA : G A) by (apply generic_format_round; [exact vfx2|apply valid_rnd_round_mode]).
    assert (G2 : G (2 * A)).
    { destruct (multiple A GA ltac:(lra)) as (m & Hm & ->). replace (2 * (IZR m * u)) with (IZR m * bpow radix2 (-52)); [apply G_scale; lia|rewrite two_u; ring]. }
    pose proof (half_ulp (1 - mu) 0 ltac:(lia)) as E0. change (bpow radix2 0) with 1 in E0. change (0 - 54)%Z with (-54)%Z in E0. specialize (E0 ltac:(apply Rabs_le; lra)). fold A in E0. apply Rabs_le_inv in E0.
    assert (H54 : bpow radix2 (-54) = u / 2). { change (-54)%Z with (-1 + -53)%Z. rewrite bpow_plus. change (bpow radix2 (-1)) with (/ 2). field. }
    assert (rnd (b - mu) <= 2 * A) by (apply below_mid; [lra|exact G2|lra]). lra.
Qed.
Lemma half_G d : G d -> bpow radix2 (-1000) <= d -> G (d / 2).
Proof.
  intros Gd H. pose proof (bpow_gt_0 radix2 (-1000)) as P. assert (N : d <> 0) by lra.
  replace (d / 2) with (d * bpow radix2 (-1)) by (change (bpow radix2 (-1)) with (/ 2); reflexivity).
  assert (M : (-999 <= mag radix2 d)%Z). { assert ((-1000 < mag radix2 d)%Z); [|lia]. apply mag_gt_bpow. rewrite Rabs_pos_eq by lra. exact H. }
  unfold generic_format in Gd. set (k := Ztrunc (scaled_mantissa radix2 fx d)) in Gd.
  assert (E : d * bpow radix2 (-1) = F2R (Float radix2 k (cexp radix2 fx d - 1))).
  { rewrite Gd at 1. unfold F2R. cbn [Fnum Fexp]. rewrite Rmult_assoc, <- bpow_plus. reflexivity. }
  rewrite E. apply generic_format_F2R. cbn [Fnum Fexp]. intros _. rewrite <- E. unfold cexp. rewrite (mag_mult_bpow radix2 d (-1) N). rewrite fx_FLT. unfold FLT_exp. lia.
Qed.
Lemma step_upper d s m : G d -> 0 <= d -> s <= / 2 -> d <= 2 * m + 2 * u -> 0 <= m -> rnd (d * s) <= m + u.
Proof.
  intros Gd D B H M. pose proof u_small as [U0 U1]. destruct (Rle_dec (bpow radix2 (-1000)) d) as [Q|Q].
  - apply Rle_trans with (d / 2); [|lra]. apply rnd_le_G; [apply half_G; assumption|nra].
  - assert (bpow radix2 (-1000) <= u) by (apply bpow_le; lia). apply Rle_trans with d; [|lra]. apply rnd_le_G; [exact Gd|nra].
Qed.
Lemma moved mu d s : cosR mu -> G d -> 0 <= d -> d <= 2 * (1 - Rabs mu) + 2 * u -> - / 2 <= s <= / 2 -> cosR (rnd (mu + rnd (d * s))).
Proof.
  intros C Gd D H B. unfold cosR in C. assert (M : 0 <= 1 - Rabs mu) by (pose proof (Rabs_le mu 1 ltac:(lra)); lra).
  pose proof (step_upper d s _ Gd D (proj2 B) H M) as T1. pose proof (step_upper d (- s) _ Gd D ltac:(lra) H M) as T2.
  replace (d * - s) with (- (d * s)) in T2 by ring. rewrite rnd_opp in T2. pose proof (Rle_abs mu). pose proof (Rle_abs (- mu)) as W. rewrite Rabs_Ropp in W.
  split; [apply above_tie; lra|apply below_tie; lra].
Qed.
(** when rounding has put a neighbour on the wrong side the step is tiny *)
Lemma moved_back mu d s : cosR mu -> - 6 * u <= d <= 0 -> - / 2 <= s <= / 2 -> Rabs (rnd (mu + rnd (d * s))) <= 1 + 4 * u.
Proof.
  intros C D B. unfold cosR in C. pose proof u_small as [U0 U1].
  assert (G3 : G (3 * u)) by (apply (G_scale 3 (-53)); lia).
  assert (T : - (3 * u) <= rnd (d * s) <= 3 * u) by (split; [apply rnd_ge_G; [apply G_opp, G3|nra]|apply rnd_le_G; [exact G3|nra]]).
  assert (G4 : G (1 + 4 * u)). { replace (1 + 4 * u) with (IZR (2 ^ 52 + 2) * bpow radix2 (-52)); [apply G_scale; lia|]. rewrite two_u, u_val. change (IZR (2 ^ 52 + 2)) with 4503599627370498. field. }
  apply Rabs_le. split; [apply rnd_ge_G; [apply G_opp, G4|lra]|apply rnd_le_G; [exact G4|lra]].
Qed.

(** ** how far interpolation can put a neighbour on the wrong side, next to 1 *)
Lemma strict_err e a b f : (e = 0 \/ e = 1)%Z -> Rabs (b - a) <= bpow radix2 e -> 0 <= f <= 1 -> Rabs (rnd (f * rnd (b - a)) - f * (b - a)) < 2 * bpow radix2 (e - 54).
Proof.
  intros He H F. pose proof (bpow_gt_0 radix2 (e - 54)) as P. set (h := bpow radix2 (e - 54)) in *.
  pose proof (half_ulp (b - a) e ltac:(lia) H) as E1. fold h in E1. set (D := rnd (b - a)) in *.
  assert (GB : G (bpow radix2 e)) by (apply generic_format_bpow; rewrite fx_FLT; unfold FLT_exp; lia). apply Rabs_le_inv in H. apply Rabs_le_inv in E1.
  assert (D2 : - bpow radix2 e <= D <= bpow radix2 e) by (split; [apply rnd_ge_G; [apply G_opp, GB|lra]|apply rnd_le_G; [exact GB|lra]]).
  assert (GD : G D) by (apply generic_format_round; [exact vfx2|apply valid_rnd_round_mode]).
  destruct (Req_dec f 1) as [->|N].
  - rewrite !Rmult_1_l, rnd_G by exact GD. apply Rabs_lt. lra.
  - pose proof (half_ulp (f * D) e ltac:(lia) ltac:(apply Rabs_le; nra)) as E2. fold h in E2. apply Rabs_le_inv in E2.
    assert (- h < f * (D - (b - a)) < h). { assert (f * h < h) by nra. split; nra. }
    apply Rabs_lt. lra.
Qed.
Lemma one_minus n : IZR (2 ^ 53 - n) * u = 1 - IZR n * u.
Proof. rewrite minus_IZR, u_val. change (IZR (2 ^ 53)) with 9007199254740992. field. Qed.
Lemma near_one x n : G x -> (0 <= n <= 10)%Z -> 1 - IZR n * u - u < x -> 1 - IZR n * u <= x.
Proof.
  intros Gx Hn H. pose proof u_small as [U0 U1]. assert (IZR n <= 10) by (apply IZR_le; lia). assert (0 <= IZR n) by (apply IZR_le; lia). destruct (Rle_dec 1 x) as [L|L]; [nra|].
  destruct (multiple x Gx ltac:(nra)) as (m & Hm & E). rewrite <- one_minus. rewrite E in H |- *. assert (H' : IZR (2 ^ 53 - n - 1) * u < IZR m * u).
  { replace (2 ^ 53 - n - 1)%Z with (2 ^ 53 - (n + 1))%Z by ring. rewrite one_minus, plus_IZR. lra. }
  apply Rmult_le_compat_r; [lra|]. apply Rmult_lt_reg_r in H'; [|exact U0]. apply lt_IZR in H'. apply IZR_le. lia.
Qed.
Lemma above x n : (0 <= n <= 10)%Z -> 1 - IZR n * u - u / 2 < x -> 1 - IZR n * u <= rnd x.
Proof.
  intros Hn H. pose proof u_small as [U0 U1]. assert (0 <= IZR n <= 10) by (split; apply IZR_le; lia). destruct (Rle_dec 1 x) as [L|L].
  - apply Rle_trans with 1; [nra|]. apply rnd_ge_G; [apply G_1|exact L].
  - apply near_one; [apply generic_format_round; [exact vfx2|apply valid_rnd_round_mode]|exact Hn|].
    pose proof (half_ulp x 0 ltac:(lia)) as E. change (bpow radix2 0) with 1 in E. change (0 - 54)%Z with (-54)%Z in E. specialize (E ltac:(apply Rabs_le; nra)). apply Rabs_le_inv in E.
    assert (bpow radix2 (-54) = u / 2). { change (-54)%Z with (-1 + -53)%Z. rewrite bpow_plus. change (bpow radix2 (-1)) with (/ 2). field. } lra.
Qed.
(** the sum before its rounding *)
Lemma sum_low x y : y <= 1 -> - 1 < y -> y <= rnd x -> y - u / 2 <= x.
Proof.
  intros H H1 L. pose proof u_small as [U0 U1]. destruct (Rle_dec 1 x) as [Q|Q]; [lra|]. destruct (Rle_dec (-1) x) as [Q2|Q2].
  - pose proof (half_ulp x 0 ltac:(lia)) as E. change (bpow radix2 0) with 1 in E. change (0 - 54)%Z with (-54)%Z in E. specialize (E ltac:(apply Rabs_le; lra)). apply Rabs_le_inv in E.
    assert (bpow radix2 (-54) = u / 2). { change (-54)%Z with (-1 + -53)%Z. rewrite bpow_plus. change (bpow radix2 (-1)) with (/ 2). field. } lra.
  - assert (rnd x <= -1) by (apply rnd_le_G; [apply (G_int (-1)); lia|lra]). lra.
Qed.
Lemma rise_low a b a' b' f : cosR a -> cosR b -> cosR a' -> cosR b' -> 0 <= f <= 1 -> a <= a' -> b <= b' -> 1 - u <= lerpR a b f -> 1 - 5 * u <= lerpR a' b' f.
Proof.
  intros A B A' B' F L1 L2 H. unfold cosR in *. pose proof u_small as [U0 U1]. unfold lerpR in *. apply sum_low in H; [|lra|lra].
  pose proof (strict_err 1 a b f ltac:(right; reflexivity)) as E. change (bpow radix2 1) with 2 in E. change (1 - 54)%Z with (-53)%Z in E. specialize (E ltac:(apply Rabs_le; lra) F). apply Rabs_def2 in E.
  pose proof (strict_err 1 a' b' f ltac:(right; reflexivity)) as E'. change (bpow radix2 1) with 2 in E'. change (1 - 54)%Z with (-53)%Z in E'. specialize (E' ltac:(apply Rabs_le; lra) F). apply Rabs_def2 in E'.
  assert (a + f * (b - a) <= a' + f * (b' - a')) by nra. apply (above _ 5); [lia|]. lra.
Qed.
Lemma multiple2 x : G x -> 1 <= x <= 2 -> exists m, x = IZR m * (2 * u).
Proof.
  intros Gx H. assert (G (x / 2)) as G2. { apply half_G; [exact Gx|]. apply Rle_trans with 1; [|lra]. change 1 with (bpow radix2 0). apply bpow_le. lia. }
  destruct (multiple (x / 2) G2 ltac:(lra)) as (m & _ & E). exists m. lra.
Qed.
Lemma rise_one a b a' b' f : G a -> G b' -> G f -> G a' -> cosR a -> cosR b -> cosR a' -> cosR b' -> 0 <= f <= 1 -> a <= a' -> b <= b' -> lerpR a b f = 1 -> 1 - 2 * u <= lerpR a' b' f.
Proof.
  intros Ga Gb' Gf Ga' A B A' B' F L1 L2 H. unfold cosR in *. pose proof u_small as [U0 U1]. unfold lerpR in *. assert (S0 : 1 - u / 2 <= a + rnd (f * rnd (b - a))) by (apply sum_low; lra). clear H.
  destruct (Rle_dec b a) as [Q|Q].
  - (* downwards: both start at 1 *)
    assert (D0 : rnd (b - a) <= 0) by (apply rnd_le_G; [apply G0|lra]). assert (T0 : rnd (f * rnd (b - a)) <= 0) by (apply rnd_le_G; [apply G0|nra]).
    assert (Ea : 1 <= a). { pose proof (near_one a 0 Ga ltac:(lia)) as W. rewrite Rmult_0_l in W. specialize (W ltac:(lra)). lra. }
    assert (a = 1) by lra. assert (a' = 1) by lra. subst a a'.
    assert (rnd (b - 1) <= rnd (b' - 1)) by (apply rnd_le; lra). assert (rnd (f * rnd (b - 1)) <= rnd (f * rnd (b' - 1))) by (apply rnd_le; nra).
    apply (above _ 2); [lia|]. lra.
  - destruct (Rle_dec a 0) as [P|P].
    + (* a long step *)
      set (D := rnd (b - a)) in *. set (t := rnd (f * D)) in *.
      assert (D2 : 0 <= D <= 2) by (split; [apply rnd_ge_G; [apply G0|lra]|apply rnd_le_G; [apply (G_int 2); lia|lra]]).
      assert (GD : G D) by (apply generic_format_round; [exact vfx2|apply valid_rnd_round_mode]). assert (Gt : G t) by (apply generic_format_round; [exact vfx2|apply valid_rnd_round_mode]).
      assert (tD : t <= D) by (apply rnd_le_G; [exact GD|nra]).
      assert (t1 : 1 <= t). { pose proof (near_one t 0 Gt ltac:(lia)) as W. rewrite Rmult_0_l in W. specialize (W ltac:(lra)). lra. }
      assert (DH : D <= 1 - a + u).
      { apply Rle_trans with (rnd (1 - a)); [apply rnd_le; lra|]. pose proof (half_ulp (1 - a) 1 ltac:(lia)) as E. change (bpow radix2 1) with 2 in E. change (1 - 54)%Z with (-53)%Z in E. specialize (E ltac:(apply Rabs_le; lra)). apply Rabs_le_inv in E. lra. }
      assert (Dt : D = t).
      { destruct (multiple2 D GD ltac:(lra)) as (m & Em). destruct (multiple2 t Gt ltac:(lra)) as (n & En). rewrite Em, En in *.
        assert (W : (IZR m - IZR n) * (2 * u) < 1 * (2 * u)) by lra. apply Rmult_lt_reg_r in W; [|lra]. rewrite <- minus_IZR in W. apply lt_IZR in W.
        assert (V : 0 * (2 * u) <= (IZR m - IZR n) * (2 * u)) by lra. apply Rmult_le_reg_r in V; [|lra]. rewrite <- minus_IZR in V. apply le_IZR in V. f_equal. f_equal. lia. }
      assert (F1 : f = 1).
      { destruct (Rle_lt_or_eq_dec f 1 ltac:(lra)) as [N|N]; [exfalso|exact N].
        assert (FU : f <= 1 - u). { destruct (Rle_dec f (1 - u)) as [Y|Y]; [exact Y|]. pose proof (near_one f 0 Gf ltac:(lia)) as W. rewrite Rmult_0_l in W. specialize (W ltac:(lra)). lra. }
        destruct (Rle_lt_or_eq_dec 1 D ltac:(lra)) as [Y|Y].
        - pose proof (half_ulp (f * D) 1 ltac:(lia)) as E. change (bpow radix2 1) with 2 in E. change (1 - 54)%Z with (-53)%Z in E. specialize (E ltac:(apply Rabs_le; nra)). fold t in E. apply Rabs_le_inv in E. nra.
        - unfold t in Dt. rewrite <- Y, Rmult_1_r, rnd_G in Dt by exact Gf. lra. }
      subst f. pose proof (half_ulp (b - a) 1 ltac:(lia)) as E. change (bpow radix2 1) with 2 in E. change (1 - 54)%Z with (-53)%Z in E. specialize (E ltac:(apply Rabs_le; lra)). fold D in E. apply Rabs_le_inv in E.
      assert (B1 : 1 - u <= b'). { pose proof (near_one b' 1 Gb' ltac:(lia)) as W. rewrite Rmult_1_l in W. apply W. lra. }
      assert (GD' : G (rnd (b' - a'))) by (apply generic_format_round; [exact vfx2|apply valid_rnd_round_mode]). rewrite Rmult_1_l, (rnd_G (rnd (b' - a'))) by exact GD'.
      pose proof (half_ulp (b' - a') 1 ltac:(lia)) as E'. change (bpow radix2 1) with 2 in E'. change (1 - 54)%Z with (-53)%Z in E'. specialize (E' ltac:(apply Rabs_le; lra)). apply Rabs_le_inv in E'.
      apply (above _ 2); [lia|]. lra.
    + (* a short step *)
      pose proof (strict_err 0 a b f ltac:(left; reflexivity)) as E. change (bpow radix2 0) with 1 in E. specialize (E ltac:(apply Rabs_le; lra) F). apply Rabs_def2 in E.
      pose proof (strict_err 0 a' b' f ltac:(left; reflexivity)) as E'. change (bpow radix2 0) with 1 in E'. specialize (E' ltac:(apply Rabs_le; lra) F). apply Rabs_def2 in E'.
      assert (H54 : 2 * bpow radix2 (0 - 54) = u). { change (0 - 54)%Z with (-1 + -53)%Z. rewrite bpow_plus. change (bpow radix2 (-1)) with (/ 2). field. } rewrite H54 in *.
      assert (a + f * (b - a) <= a' + f * (b' - a')) by nra. apply (above _ 2); [lia|]. lra.
Qed.
(** a neighbour above, interpolated, is below by no more than the step allows *)
Lemma wrong_side a b a' b' f : G a -> G b' -> G f -> G a' -> cosR a -> cosR b -> cosR a' -> cosR b' -> 0 <= f <= 1 -> a <= a' -> b <= b' -> 0 <= lerpR a b f ->
  rnd (lerpR a b f - lerpR a' b' f) <= 2 * (1 - lerpR a b f) + 2 * u.
Proof.
  intros Ga Gb' Gf Ga' A B A' B' F L1 L2 P. pose proof u_small as [U0 U1]. pose proof (lerp_in a b f Ga A B F) as M.
  assert (GM : G (lerpR a b f)) by (apply generic_format_round; [exact vfx2|apply valid_rnd_round_mode]).
  pose proof (lerp_err a b f A B F) as E1. pose proof (lerp_err a' b' f A' B' F) as E2. apply Rabs_le_inv in E1. apply Rabs_le_inv in E2. assert (O : a + f * (b - a) <= a' + f * (b' - a')) by (unfold cosR in *; nra).
  pose proof (rise_low a b a' b' f A B A' B' F L1 L2) as R1. pose proof (rise_one a b a' b' f Ga Gb' Gf Ga' A B A' B' F L1 L2) as R2. set (m := lerpR a b f) in *. set (r := lerpR a' b' f) in *. unfold cosR in M.
  assert (GU : forall k, (0 <= k <= 10)%Z -> G (IZR k * u)) by (intros k Hk; apply G_scale; lia).
  destruct (Rle_dec m (1 - 2 * u)) as [Q|Q].
  - apply Rle_trans with (6 * u); [apply rnd_le_G; [apply (GU 6%Z); lia|lra]|lra].
  - pose proof (near_one m 1 GM ltac:(lia)) as W. rewrite Rmult_1_l in W. specialize (W ltac:(lra)). destruct (Rle_dec m (1 - u)) as [Q2|Q2].
    + specialize (R1 W). apply Rle_trans with (4 * u); [apply rnd_le_G; [apply (GU 4%Z); lia|lra]|lra].
    + pose proof (near_one m 0 GM ltac:(lia)) as W2. rewrite Rmult_0_l in W2. specialize (W2 ltac:(lra)). assert (m = 1) by lra. specialize (R2 H).
      apply Rle_trans with (2 * u); [apply rnd_le_G; [apply (GU 2%Z); lia|lra]|lra].
Qed.
