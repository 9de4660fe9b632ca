(** * The temperature survives saving and loading exactly, unless it is a power of two *)
From Verif Require Import M_AceBin S_AceBin L_AceBin.
From Flocq Require Import Core IEEE754.BinarySingleNaN IEEE754.Binary IEEE754.Bits.
From Coq Require Import ZArith Reals Lia Lra Psatz.
Local Open Scope R_scope.

Notation fexp64 := (FLT_exp (-1074) 53).
Notation RN := (round radix2 fexp64 ZnearestE).
Notation F64 := (generic_format radix2 fexp64).
Notation cst := 11604518120.
Local Instance prec53 : Prec_gt_0 53. Proof. unfold Prec_gt_0. lia. Qed.

(** integers: something at least as near rounds to the same integer *)
Lemma znearest_closer w w' (n : Z) : Rabs (w - IZR n) <= / 2 -> ZnearestE w = n -> Rabs (w' - IZR n) <= Rabs (w - IZR n) -> ZnearestE w' = n.
Proof.
  intros H1 H2 H3. destruct (Rlt_or_le (Rabs (w' - IZR n)) (/ 2)) as [L|L]; [apply Znearest_imp; exact L|].
  assert (A : Rabs (w - IZR n) = / 2) by lra. assert (A' : Rabs (w' - IZR n) = / 2) by lra.
  (* a tie: n is even *)
  assert (EV : Z.even n = true).
  { revert H2 A. unfold Rabs. destruct (Rcase_abs (w - IZR n)); intros H2 A.
    - assert (E : w = IZR n - / 2) by lra.
      assert (FL : Zfloor w = (n - 1)%Z) by (apply Zfloor_imp; rewrite plus_IZR, !minus_IZR; lra).
      unfold Znearest in H2. rewrite FL in H2. replace (w - IZR (n - 1)) with (/ 2) in H2 by (rewrite minus_IZR; lra).
      rewrite Rcompare_Eq in H2 by reflexivity. destruct (Z.even (n - 1)) eqn:EE; cbn in H2; [lia|].
      replace (Z.even n) with (negb (Z.even (n - 1))); [rewrite EE; reflexivity|]. rewrite Z.even_sub. destruct (Z.even n); reflexivity.
    - assert (E : w = IZR n + / 2) by lra.
      assert (FL : Zfloor w = n) by (apply Zfloor_imp; rewrite plus_IZR; lra).
      unfold Znearest in H2. rewrite FL in H2. replace (w - IZR n) with (/ 2) in H2 by lra.
      rewrite Rcompare_Eq in H2 by reflexivity. destruct (Z.even n) eqn:EE; [reflexivity|]. cbn in H2.
      rewrite (Zceil_floor_neq w) in H2 by (rewrite FL; lra). lia. }
  revert A'. unfold Rabs. destruct (Rcase_abs (w' - IZR n)); intros A'.
  - assert (FL : Zfloor w' = (n - 1)%Z) by (apply Zfloor_imp; rewrite plus_IZR, !minus_IZR; lra).
    unfold Znearest. rewrite FL. replace (w' - IZR (n - 1)) with (/ 2) by (rewrite minus_IZR; lra).
    rewrite Rcompare_Eq by reflexivity. rewrite Z.even_sub, EV. cbn. rewrite (Zceil_floor_neq w') by (rewrite FL, minus_IZR; lra). lia.
  - assert (FL : Zfloor w' = n) by (apply Zfloor_imp; rewrite plus_IZR; lra).
    unfold Znearest. rewrite FL. replace (w' - IZR n) with (/ 2) by lra. rewrite Rcompare_Eq by reflexivity. rewrite EV. reflexivity.
Qed.

Lemma cexp_in z e : (-1000 <= e)%Z -> bpow radix2 (e + 52) <= z < bpow radix2 (e + 53) -> cexp radix2 fexp64 z = e.
Proof.
  intros He H. unfold cexp. rewrite (mag_unique_pos radix2 z (e + 53)); [unfold FLT_exp; lia|]. replace (e + 53 - 1)%Z with (e + 52)%Z by lia. exact H.
Qed.

Lemma real_trip x : F64 x -> bpow radix2 (-900) <= x -> let t := RN (x * cst) in
  (forall k, t <> bpow radix2 k) -> RN (RN (t / cst) * cst) = t.
Proof.
  intros Fx Hx t NP. set (y := RN (t / cst)).
  assert (P900 : 0 < bpow radix2 (-900)) by apply bpow_gt_0.
  assert (Ft : F64 t) by (apply generic_format_round; auto with typeclass_instances).
  assert (T0 : bpow radix2 (-900) <= t).
  { apply round_ge_generic; auto with typeclass_instances; [apply generic_format_bpow; unfold FLT_exp; lia|]. nra. }
  set (e := (mag radix2 t - 53)%Z).
  assert (Hm : (-899 <= mag radix2 t)%Z).
  { apply (mag_ge_bpow radix2 t (-899)). rewrite Rabs_pos_eq by lra. exact T0. }
  assert (CE : cexp radix2 fexp64 t = e) by (unfold cexp, FLT_exp, e; lia).
  assert (B : bpow radix2 (e + 52) <= t < bpow radix2 (e + 53)).
  { unfold e. replace (mag radix2 t - 53 + 52)%Z with (mag radix2 t - 1)%Z by lia. replace (mag radix2 t - 53 + 53)%Z with (mag radix2 t : Z) by lia.
    pose proof (bpow_mag_gt radix2 t) as M1. pose proof (bpow_mag_le radix2 t ltac:(lra)) as M2. rewrite Rabs_pos_eq in M1, M2 by lra. lra. }
  assert (B' : bpow radix2 (e + 52) < t) by (destruct B as [[L|E] _]; [exact L|]; exfalso; apply (NP (e + 52)%Z); auto).
  assert (U0 : 0 < bpow radix2 e) by apply bpow_gt_0.
  set (n := Ztrunc (scaled_mantissa radix2 fexp64 t)).
  assert (Tn : t = IZR n * bpow radix2 e) by (unfold generic_format, F2R in Ft; cbn in Ft; rewrite CE in Ft; exact Ft).
  assert (P52 : bpow radix2 (e + 52) = IZR (2 ^ 52) * bpow radix2 e) by (rewrite bpow_plus, Rmult_comm; f_equal; cbn; lra).
  assert (P53 : bpow radix2 (e + 53) = IZR (2 ^ 53) * bpow radix2 e) by (rewrite bpow_plus, Rmult_comm; f_equal; cbn; lra).
  assert (N1 : (2 ^ 52 + 1 <= n <= 2 ^ 53 - 1)%Z).
  { split.
    - apply Zlt_succ_le. enough (2 ^ 52 < n)%Z by lia. apply lt_IZR. apply Rmult_lt_reg_r with (bpow radix2 e); [exact U0|]. lra.
    - enough (n < 2 ^ 53)%Z by lia. apply lt_IZR. apply Rmult_lt_reg_r with (bpow radix2 e); [exact U0|]. lra. }
  assert (R1 : IZR (2 ^ 52) + 1 <= IZR n <= IZR (2 ^ 53) - 1).
  { destruct N1 as [L U]. apply IZR_le in L, U. rewrite plus_IZR in L. rewrite minus_IZR in U. lra. }
  assert (EX : Rabs (x * cst - t) <= / 2 * bpow radix2 e).
  { rewrite Rabs_minus_sym. unfold t. replace (bpow radix2 e) with (ulp radix2 fexp64 (RN (x * cst))).
    - apply error_le_half_ulp_round; auto with typeclass_instances.
    - fold t. rewrite ulp_neq_0 by lra. rewrite CE. reflexivity. }
  assert (YX : Rabs (y * cst - t) <= Rabs (x * cst - t)).
  { destruct (round_N_pt radix2 fexp64 (fun z => negb (Z.even z)) (t / cst)) as [_ Nr].
    specialize (Nr x Fx). fold y in Nr.
    replace (y * cst - t) with ((y - t / cst) * cst) by field. replace (x * cst - t) with ((x - t / cst) * cst) by field.
    rewrite !Rabs_mult, (Rabs_pos_eq cst) by lra. lra. }
  assert (SC : forall z, Rabs (z - t) <= / 2 * bpow radix2 e ->
     cexp radix2 fexp64 z = e /\ Rabs (z * bpow radix2 (- e) - IZR n) = Rabs (z - t) * bpow radix2 (- e)).
  { intros z Hz. split.
    - apply cexp_in; [unfold e; lia|]. rewrite P52, P53. apply Rabs_le_inv in Hz. rewrite Tn in Hz. nra.
    - assert (I : bpow radix2 e * bpow radix2 (- e) = 1) by (rewrite <- bpow_plus, Z.add_opp_diag_r; reflexivity).
      assert (J : 0 < bpow radix2 (- e)) by apply bpow_gt_0.
      rewrite <- (Rabs_pos_eq (bpow radix2 (- e))) at 2 by lra. rewrite <- Rabs_mult. f_equal. rewrite Tn.
      replace ((z - IZR n * bpow radix2 e) * bpow radix2 (- e)) with (z * bpow radix2 (- e) - IZR n * (bpow radix2 e * bpow radix2 (- e))) by ring. rewrite I. ring. }
  destruct (SC (x * cst) EX) as [CX DX]. destruct (SC (y * cst) ltac:(lra)) as [CY DY].
  assert (J : 0 < bpow radix2 (- e)) by apply bpow_gt_0.
  assert (I : bpow radix2 e * bpow radix2 (- e) = 1) by (rewrite <- bpow_plus, Z.add_opp_diag_r; reflexivity).
  assert (ZX : ZnearestE (x * cst * bpow radix2 (- e)) = n).
  { assert (TT : t = IZR (ZnearestE (x * cst * bpow radix2 (- e))) * bpow radix2 e).
    { unfold t at 1. unfold round, F2R, scaled_mantissa. cbn [Fnum Fexp]. rewrite CX. reflexivity. }
    rewrite Tn in TT. apply Rmult_eq_reg_r in TT; [|lra]. apply eq_IZR in TT. symmetry. exact TT. }
  unfold round, F2R, scaled_mantissa. cbn [Fnum Fexp]. rewrite CY, Tn. f_equal. f_equal.
  apply (znearest_closer (x * cst * bpow radix2 (- e))); [|exact ZX|].
  - rewrite DX. nra.
  - rewrite DX, DY. apply Rmult_le_compat_r; [lra|exact YX].
Qed.

Lemma b64_bits f : b64_of_bits (bits_of_b64 f) = f.
Proof. apply (binary_float_of_bits_of_binary_float 52 11); reflexivity. Qed.
Lemma kelvin_factor_value : kelvin_factor = 4757381716471971840%Z.
Proof. vm_compute. reflexivity. Qed.
Lemma kelvin_K : B2R 53 1024 (b64_of_bits kelvin_factor) = cst /\ is_finite 53 1024 (b64_of_bits kelvin_factor) = true.
Proof.
  rewrite kelvin_factor_value. split; [|vm_compute; reflexivity].
  assert (E : B2FF 53 1024 (b64_of_bits 4757381716471971840) = F754_finite false 6084109596098560 (-19)) by (vm_compute; reflexivity).
  rewrite <- FF2R_B2FF, E. unfold FF2R, F2R. cbn [Fnum Fexp cond_Zopp bpow]. cbn. lra.
Qed.

Lemma mult_ok f g : is_finite 53 1024 f = true -> is_finite 53 1024 g = true -> Rabs (RN (B2R 53 1024 f * B2R 53 1024 g)) < bpow radix2 1024 ->
  B2R 53 1024 (b64_mult mode_NE f g) = RN (B2R 53 1024 f * B2R 53 1024 g) /\ is_finite 53 1024 (b64_mult mode_NE f g) = true.
Proof.
  intros Ff Fg H. unfold b64_mult. pose proof (Bmult_correct 53 1024 eq_refl eq_refl binop_nan_pl64 mode_NE f g) as C.
  change (round_mode mode_NE) with ZnearestE in C. change (SpecFloat.fexp 53 1024) with fexp64 in C.
  rewrite Rlt_bool_true in C by exact H. destruct C as (C1 & C2 & _). rewrite Ff, Fg in C2. auto.
Qed.
Lemma div_ok f g : is_finite 53 1024 f = true -> B2R 53 1024 g <> 0 -> Rabs (RN (B2R 53 1024 f / B2R 53 1024 g)) < bpow radix2 1024 ->
  B2R 53 1024 (b64_div mode_NE f g) = RN (B2R 53 1024 f / B2R 53 1024 g) /\ is_finite 53 1024 (b64_div mode_NE f g) = true.
Proof.
  intros Ff Fg H. unfold b64_div. pose proof (Bdiv_correct 53 1024 eq_refl eq_refl binop_nan_pl64 mode_NE f g Fg) as C.
  change (round_mode mode_NE) with ZnearestE in C. change (SpecFloat.fexp 53 1024) with fexp64 in C.
  rewrite Rlt_bool_true in C by exact H. destruct C as (C1 & C2 & _). rewrite Ff in C2. auto.
Qed.
Lemma pos_inj f g : is_finite 53 1024 f = true -> is_finite 53 1024 g = true -> 0 < B2R 53 1024 f -> B2R 53 1024 f = B2R 53 1024 g -> f = g.
Proof.
  intros Ff Fg P E. apply B2R_inj; auto.
  - destruct f; try discriminate; [cbn in P; lra|reflexivity].
  - destruct g; try discriminate; [cbn in E; lra|reflexivity].
Qed.

Lemma rn_between z a b : bpow radix2 a <= z <= bpow radix2 b -> (-1000 <= a)%Z -> (-1000 <= b)%Z -> bpow radix2 a <= RN z <= bpow radix2 b.
Proof.
  intros [L U] Ha Hb. split; [apply round_ge_generic|apply round_le_generic]; auto with typeclass_instances; apply generic_format_bpow; unfold FLT_exp; lia.
Qed.

Lemma bits_trip xb : let x := b64_of_bits xb in is_finite 53 1024 x = true -> bpow radix2 (-900) <= B2R 53 1024 x <= bpow radix2 900 ->
  let t := times xb kelvin_factor in (forall k, B2R 53 1024 (b64_of_bits t) <> bpow radix2 k) -> times (over t kelvin_factor) kelvin_factor = t.
Proof.
  intros x Fx Rx t NP. destruct kelvin_K as [KV KF]. set (K := b64_of_bits kelvin_factor) in *.
  assert (C33 : bpow radix2 33 <= cst <= bpow radix2 34) by (cbn; lra).
  assert (P9 : 0 < bpow radix2 (-900)) by apply bpow_gt_0. assert (P33 : 0 < bpow radix2 33) by apply bpow_gt_0.
  assert (BX : bpow radix2 (-867) <= B2R 53 1024 x * cst <= bpow radix2 934).
  { replace (-867)%Z with (-900 + 33)%Z by lia. replace 934%Z with (900 + 34)%Z by lia. rewrite !bpow_plus. split; apply Rmult_le_compat; lra. }
  apply rn_between in BX; [|lia|lia].
  assert (LT : forall a b z, bpow radix2 a <= z <= bpow radix2 b -> (b < 1024)%Z -> Rabs z < bpow radix2 1024).
  { intros a b z [L U] Hb. pose proof (bpow_gt_0 radix2 a). rewrite Rabs_pos_eq by lra. eapply Rle_lt_trans; [exact U|]. apply bpow_lt. exact Hb. }
  destruct (mult_ok x K Fx KF) as [TV TF]; [rewrite KV; eapply LT; [exact BX|lia]|]. rewrite KV in TV.
  set (tf := b64_mult mode_NE x K) in *.
  assert (Et : b64_of_bits t = tf) by (unfold t, times; fold x K tf; apply b64_bits).
  rewrite Et in NP. assert (Tt : t = bits_of_b64 tf) by reflexivity.
  assert (Fmx : F64 (B2R 53 1024 x)) by (apply (generic_format_B2R 53 1024)).
  pose proof (real_trip (B2R 53 1024 x) Fmx (proj1 Rx)) as TR. cbv zeta in TR. rewrite <- TV in TR, BX.
  assert (BY : bpow radix2 (-901) <= B2R 53 1024 tf / cst <= bpow radix2 901).
  { split.
    - apply Rmult_le_reg_r with cst; [lra|]. unfold Rdiv. rewrite Rmult_assoc, Rinv_l, Rmult_1_r by lra.
      apply Rle_trans with (bpow radix2 (-867)); [|lra]. replace (-867)%Z with (-901 + 34)%Z by lia. rewrite bpow_plus. apply Rmult_le_compat_l; [apply bpow_ge_0|lra].
    - apply Rmult_le_reg_r with cst; [lra|]. unfold Rdiv. rewrite Rmult_assoc, Rinv_l, Rmult_1_r by lra.
      apply Rle_trans with (bpow radix2 934); [lra|]. replace 934%Z with (901 + 33)%Z by lia. rewrite bpow_plus. apply Rmult_le_compat_l; [apply bpow_ge_0|lra]. }
  apply rn_between in BY; [|lia|lia].
  destruct (div_ok tf K TF) as [YV YF]; [rewrite KV; lra|rewrite KV; eapply LT; [exact BY|lia]|]. rewrite KV in YV.
  set (yf := b64_div mode_NE tf K) in *.
  assert (Eo : b64_of_bits (over t kelvin_factor) = yf) by (unfold over; rewrite Et; fold K yf; apply b64_bits).
  specialize (TR NP).
  assert (BT : 0 < B2R 53 1024 tf) by (pose proof (bpow_gt_0 radix2 (-867)); lra).
  destruct (mult_ok yf K YF KF) as [ZV ZF]; [rewrite KV, YV, TR; eapply LT; [exact BX|lia]|]. rewrite KV, YV, TR in ZV.
  unfold times at 1. rewrite Eo. fold K. rewrite Tt. f_equal. apply pos_inj; auto. lra.
Qed.

(** 0 MeV: nothing is lost either *)
Lemma zero_trip : times (over (times 0 kelvin_factor) kelvin_factor) kelvin_factor = times 0 kelvin_factor.
Proof. vm_compute. reflexivity. Qed.
