(** * Binary64: picking one of n cells with a uniform draw.  fl(n * xi) < n for every double 0 <= xi < 1 and every integer 1 <= n < 2^53. *)
From Coq Require Import Reals Lra Lia ZArith Bool.
From Flocq Require Import Core IEEE754.BinarySingleNaN.
From Flocq Require Import IEEE754.PrimFloat.
From Coq Require Import Floats Uint63.
From Verif Require Import Base NumF S_PickF M_Grid M_PC L_SafeT M_Interp M_Tab1D M_Func M_Ace M_OutE M_Thermal.
Local Open Scope R_scope.

Local Notation rnd := (round radix2 (SpecFloat.fexp prec emax) (round_mode mode_NE)).
Local Notation fx := (SpecFloat.fexp prec emax).
Local Notation G := (generic_format radix2 fx).

Lemma fx_FLT : fx = FLT_exp (-1074) 53. Proof. reflexivity. Qed.
Local Instance vfx : Valid_exp fx. Proof. rewrite fx_FLT. apply FLT_exp_valid. reflexivity. Qed.
Local Instance mfx : Monotone_exp fx. Proof. rewrite fx_FLT. apply FLT_exp_monotone. Qed.

Lemma one_BR : BR 1 = 1 /\ fin 1.
Proof. split; [|reflexivity]. unfold BR. change 1%float with PrimFloat.one. rewrite one_equiv, Prim2B_B2Prim. apply Bone_correct. Qed.
Lemma zero_BR : BR 0 = 0 /\ fin 0.
Proof. split; reflexivity. Qed.

Lemma unit_double_R x : unit_double x -> fin x /\ 0 <= BR x < 1.
Proof.
  intros [H0 H1]. rewrite leb_equiv in H0. rewrite ltb_equiv in H1.
  assert (F : fin x).
  { unfold fin. destruct (Prim2B x) as [s|s| |s m e B]; try reflexivity.
    - destruct s; [discriminate H0|discriminate H1].
    - discriminate H0. }
  split; [exact F|]. destruct one_BR as [O1 O2], zero_BR as [Z1 Z2].
  rewrite Bleb_correct in H0 by assumption. rewrite Bltb_correct in H1 by assumption.
  fold (BR x) (BR 0) (BR 1) in *. rewrite Z1 in H0. rewrite O1 in H1.
  split; [now apply Rle_bool_true_iff in H0 || (revert H0; case Rle_bool_spec; [easy|discriminate])|revert H1; case Rlt_bool_spec; [easy|discriminate]].
Qed.

Lemma G_int n : (Z.abs n <= 2 ^ 53)%Z -> G (IZR n).
Proof.
  intros H. rewrite fx_FLT. apply generic_format_FLT.
  destruct (Z.eq_dec (Z.abs n) (2 ^ 53)) as [E|E].
  - exists (Float radix2 (n / 2) 1).
    + unfold F2R. cbn [Fnum Fexp bpow]. rewrite <- mult_IZR. f_equal.
      assert (n = 2 ^ 53 \/ n = - 2 ^ 53)%Z as [-> | ->] by lia; reflexivity.
    + cbn [Fnum]. assert (n = 2 ^ 53 \/ n = - 2 ^ 53)%Z as [-> | ->] by lia; reflexivity.
    + cbn; lia.
  - exists (Float radix2 n 0).
    + unfold F2R. cbn. lra.
    + cbn [Fnum]. change (radix2 ^ 53)%Z with (2 ^ 53)%Z. lia.
    + cbn. lia.
Qed.
Lemma ofZ_BR n : (0 <= n <= 2 ^ 53)%Z -> BR (F_ofZ n) = IZR n /\ fin (F_ofZ n).
Proof.
  intros H. destruct n as [|p|p]; [split; reflexivity| |lia].
  unfold BR, fin, F_ofZ. 
  pose proof (of_int63_equiv (of_Z (Z.pos p))) as Q. rewrite Q. clear Q.
  replace (to_Z (of_Z (Z.pos p))) with (Z.pos p) by (rewrite of_Z_spec, Z.mod_small; [reflexivity|]; change wB with (2^63)%Z; lia).
  pose proof (binary_normalize_correct prec emax Hprec Hmax mode_NE (Z.pos p) 0 false) as B. cbv zeta in B.
  assert (V : F2R (Float radix2 (Z.pos p) 0) = IZR (Z.pos p)) by (unfold F2R; cbn; lra).
  rewrite V in B. rewrite round_generic in B; [|apply valid_rnd_round_mode|apply G_int; lia].
  rewrite Rlt_bool_true in B; [now split|].
  rewrite Rabs_pos_eq by (apply IZR_le; lia). change (bpow radix2 emax) with (IZR (2 ^ 1024)). apply IZR_lt.
  apply Z.le_lt_trans with (2 ^ 53)%Z; [lia|reflexivity].
Qed.

Lemma G_BR x : G (BR x).
Proof. apply generic_format_B2R. Qed.
Lemma below_one x : unit_double x -> BR x <= 1 - bpow radix2 (-53).
Proof.
  intros U. apply unit_double_R in U. destruct U as [_ [U0 U1]].
  assert (P : Ulp.pred radix2 fx 1 = 1 - bpow radix2 (-53)).
  { rewrite pred_eq_pos by lra. unfold pred_pos. rewrite mag_1, Req_bool_true by reflexivity. reflexivity. }
  rewrite <- P. apply pred_ge_gt; [exact vfx|apply G_BR|apply (G_int 1); lia|exact U1].
Qed.
Lemma G0 : G 0. Proof. apply generic_format_0. Qed.

Lemma pick_lt n x : (1 <= n <= 2 ^ 53)%Z -> unit_double x -> 0 <= rnd (IZR n * BR x) < IZR n.
Proof.
  intros H U. pose proof (below_one x U) as B. apply unit_double_R in U. destruct U as [_ [U0 U1]].
  assert (N1 : 1 <= IZR n) by (apply IZR_le; lia). assert (Gn : G (IZR n)) by (apply G_int; lia).
  split.
  - rewrite <- (round_0 radix2 fx (round_mode mode_NE)). apply round_le; [exact vfx|apply valid_rnd_round_mode|]. apply Rmult_le_pos; lra.
  - apply Rle_lt_trans with (Ulp.pred radix2 fx (IZR n)); [|apply pred_lt_id; lra].
    apply round_N_le_midp; [exact vfx|apply generic_format_pred; [exact vfx|exact Gn]|].
    rewrite succ_pred by (exact vfx || exact Gn).
    apply Rle_lt_trans with (IZR n * (1 - bpow radix2 (-53))); [apply Rmult_le_compat_l; lra|].
    rewrite pred_eq_pos by lra. unfold pred_pos.
    destruct (mag radix2 (IZR n)) as [e He]. cbn [mag_val]. 
    assert (Hn : IZR n <> 0) by lra. specialize (He Hn). rewrite Rabs_pos_eq in He by lra.
    assert (E1 : (1 <= e <= 54)%Z).
    { split.
      - assert (K : (0 < e)%Z) by (apply (lt_bpow radix2); change (bpow radix2 0) with 1; lra). lia.
      - assert (bpow radix2 (e - 1) < bpow radix2 54).
        { eapply Rle_lt_trans; [apply He|]. change (bpow radix2 54) with (IZR (2 ^ 54)). apply IZR_lt. lia. }
        apply lt_bpow in H0. lia. }
    assert (F1 : fx e = (e - 53)%Z) by (rewrite fx_FLT; unfold FLT_exp; lia).
    assert (F2 : fx (e - 1) = (e - 54)%Z) by (rewrite fx_FLT; unfold FLT_exp; lia).
    assert (Q : bpow radix2 (e - 53) = 2 * bpow radix2 (e - 54)).
    { replace (e - 53)%Z with (1 + (e - 54))%Z by lia. rewrite bpow_plus. reflexivity. }
    assert (Q2 : bpow radix2 (e - 54) = bpow radix2 (e - 1) * bpow radix2 (-53)).
    { rewrite <- bpow_plus. f_equal. lia. }
    pose proof (bpow_gt_0 radix2 (-53)) as P53. pose proof (bpow_gt_0 radix2 (e - 1)) as Pe.
    case Req_bool_spec; intros E.
    + rewrite F2, Q2. rewrite E. nra.
    + assert (bpow radix2 (e - 1) < IZR n) by (destruct He as [[?|?] _]; [assumption|now symmetry in H0]).
      rewrite ulp_neq_0 by exact Hn. unfold cexp. 
      replace (mag_val radix2 (IZR n) (mag radix2 (IZR n))) with e.
      2: { symmetry. apply mag_unique. rewrite Rabs_pos_eq by lra. exact He. }
      rewrite F1, Q, Q2. nra.
Qed.

Lemma mul_BR x y : fin x -> fin y -> Rabs (rnd (BR x * BR y)) < bpow radix2 emax ->
  BR (x * y) = rnd (BR x * BR y) /\ fin (x * y).
Proof.
  intros Fx Fy H. unfold BR, fin. rewrite mul_equiv.
  pose proof (Bmult_correct prec emax Hprec Hmax mode_NE (Prim2B x) (Prim2B y)) as M.
  rewrite Rlt_bool_true in M by exact H. destruct M as [M1 [M2 _]]. split; [exact M1|]. rewrite M2. unfold fin in *. now rewrite Fx, Fy.
Qed.
Lemma add_BR x y : fin x -> fin y -> Rabs (rnd (BR x + BR y)) < bpow radix2 emax ->
  BR (x + y) = rnd (BR x + BR y) /\ fin (x + y).
Proof.
  intros Fx Fy H. unfold BR, fin. rewrite add_equiv.
  pose proof (Bplus_correct prec emax Hprec Hmax mode_NE (Prim2B x) (Prim2B y) Fx Fy) as M.
  rewrite Rlt_bool_true in M by exact H. destruct M as [M1 [M2 _]]. split; [exact M1|]. exact M2.
Qed.
Lemma big_enough n : (0 <= n <= 2 ^ 60)%Z -> IZR n < bpow radix2 emax.
Proof. intros H. change (bpow radix2 emax) with (IZR (2 ^ 1024)). apply IZR_lt. apply Z.le_lt_trans with (2 ^ 60)%Z; [lia|reflexivity]. Qed.

Lemma floor_BR x : fin x -> F_floor x = Some (Zfloor (BR x)).
Proof.
  unfold fin, BR, F_floor. rewrite <- B2SF_Prim2B.
  destruct (Prim2B x) as [s|s| |s m e B]; cbn [B2SF BinarySingleNaN.is_finite B2R]; intros F; try discriminate F.
  - rewrite Zfloor_IZR. reflexivity.
  - f_equal. symmetry. unfold F2R. cbn [Fnum Fexp].
    replace (cond_Zopp s (Z.pos m)) with (if s then Z.neg m else Z.pos m) by (destruct s; reflexivity).
    set (v := if s then Z.neg m else Z.pos m).
    destruct e as [|q|q].
    + cbn [bpow]. rewrite Rmult_1_r, Zfloor_IZR. change (2 ^ 0)%Z with 1%Z. lia.
    + change (bpow radix2 (Z.pos q)) with (IZR (Z.pow_pos 2 q)). rewrite <- mult_IZR, Zfloor_IZR. reflexivity.
    + change (bpow radix2 (Z.neg q)) with (/ IZR (2 ^ Z.pos q)). 
      assert (0 < 2 ^ Z.pos q)%Z by (apply Z.pow_pos_nonneg; lia).
      change (IZR v * / IZR (2 ^ Z.pos q)) with (IZR v / IZR (2 ^ Z.pos q)). apply Zfloor_div. lia.
Qed.

(** the cell: an integer below n *)
Lemma pick_cell lm n x : (1 <= n < 2 ^ 32)%Z -> unit_double x ->
  exists k, trunc_u32 (N := NumF lm) (PrimFloat.mul (F_ofZ n) x) = Ok k /\ (0 <= k < n)%Z /\ F_floor (PrimFloat.mul (F_ofZ n) x) = Some k /\ k = Zfloor (rnd (IZR n * BR x)).
Proof.
  intros H U. pose proof (pick_lt n x ltac:(lia) U) as P. destruct (unit_double_R x U) as [Fx Rx].
  destruct (ofZ_BR n ltac:(lia)) as [Vn Fn].
  destruct (mul_BR (F_ofZ n) x Fn Fx) as [M1 M2].
  { rewrite Vn. rewrite Rabs_pos_eq by apply P. eapply Rlt_trans; [apply P|]. apply big_enough. lia. }
  rewrite Vn in M1.
  exists (Zfloor (rnd (IZR n * BR x))).
  assert (Fl : F_floor (F_ofZ n * x) = Some (Zfloor (rnd (IZR n * BR x)))) by (rewrite floor_BR, M1; trivial).
  assert (K : (0 <= Zfloor (rnd (IZR n * BR x)) < n)%Z).
  { split; [apply Zfloor_lub; apply P|]. apply lt_IZR. eapply Rle_lt_trans; [apply Zfloor_lb|apply P]. }
  split; [|repeat split; [apply K|apply K|exact Fl]].
  unfold trunc_u32. cbn [nfloor NumF]. rewrite Fl.
  destruct (Z.leb_spec 0 (Zfloor (rnd (IZR n * BR x)))); [|lia]. destruct (Z.ltb_spec (Zfloor (rnd (IZR n * BR x))) (2 ^ 32)); [reflexivity|lia].
Qed.

(** the cell is the one the exact product falls in, up to the spacing 2^-53 of the draws *)
Lemma pick_near n x : (1 <= n < 2 ^ 32)%Z -> unit_double x ->
  let k := Zfloor (rnd (IZR n * BR x)) in IZR k - IZR n * bpow radix2 (-53) <= IZR n * BR x < IZR k + 1.
Proof.
  intros H U k. pose proof (pick_lt n x ltac:(lia) U) as P. destruct (unit_double_R x U) as [_ Rx]. set (v := IZR n * BR x) in *.
  assert (V0 : 0 <= v) by (apply Rmult_le_pos; [apply IZR_le; lia|lra]).
  assert (K0 : (0 <= k < n)%Z) by (split; [apply Zfloor_lub; apply P|apply lt_IZR; eapply Rle_lt_trans; [apply Zfloor_lb|apply P]]).
  assert (N1 : 0 < IZR n * bpow radix2 (-53)) by (apply Rmult_lt_0_compat; [apply IZR_lt; lia|apply bpow_gt_0]).
  split.
  - destruct (Rle_lt_dec (IZR k) v) as [L|L]; [lra|].
    assert (E : rnd v = IZR k).
    { apply Rle_antisym; [|apply Zfloor_lb]. rewrite <- (round_generic radix2 fx (round_mode mode_NE) (IZR k)) by (apply G_int; lia).
      apply round_le; [exact vfx|apply valid_rnd_round_mode|lra]. }
    pose proof (error_le_half_ulp_round radix2 fx (fun z => negb (Z.even z)) v) as Er.
    change (Znearest (fun z => negb (Z.even z))) with (round_mode mode_NE) in Er. rewrite E in Er.
    assert (k <> 0)%Z by (intros ->; lra).
    assert (U2 : Ulp.ulp radix2 fx (IZR k) <= 2 * (IZR k * bpow radix2 (-53))).
    { apply Rle_trans with (IZR k * bpow radix2 (-52)).
      - assert (Hk : bpow radix2 0 <= Rabs (IZR k)) by (rewrite Rabs_pos_eq by (apply IZR_le; lia); change (bpow radix2 0) with 1; apply IZR_le; lia).
        rewrite fx_FLT. pose proof (ulp_FLT_le radix2 (-1074) 53 (IZR k)) as Q. rewrite Rabs_pos_eq in Q by (apply IZR_le; lia). apply Q.
        rewrite Rabs_pos_eq in Hk by (apply IZR_le; lia). apply Rle_trans with (2 := Hk). apply bpow_le. lia.
      - change (bpow radix2 (-52)) with (/ IZR (2 ^ 52)). change (bpow radix2 (-53)) with (/ IZR (2 ^ 53)).
        replace (/ IZR (2 ^ 52)) with (2 * / IZR (2 ^ 53)); [lra|]. change (2 ^ 53)%Z with (2 * 2 ^ 52)%Z. rewrite mult_IZR. field. apply IZR_neq. lia. }
    apply Rabs_le_inv in Er. assert (IZR k * bpow radix2 (-53) <= IZR n * bpow radix2 (-53)) by (apply Rmult_le_compat_r; [apply bpow_ge_0|apply IZR_le; lia]). lra.
  - destruct (Rlt_le_dec v (IZR k + 1)) as [L|L]; [exact L|exfalso].
    assert (IZR (k + 1) <= rnd v).
    { rewrite <- (round_generic radix2 fx (round_mode mode_NE) (IZR (k + 1))) by (apply G_int; lia).
      apply round_le; [exact vfx|apply valid_rnd_round_mode|rewrite plus_IZR; exact L]. }
    apply Zfloor_lub in H0. fold k in H0. lia.
Qed.

(** the second stage of the skewed choice: fl(fl(m * x) + 2) *)
Lemma pick_shift lm m x : (1 <= m < 2 ^ 32 - 4)%Z -> unit_double x ->
  exists k, trunc_u32 (N := NumF lm) (PrimFloat.add (PrimFloat.mul (F_ofZ m) x) (F_ofZ 2)) = Ok k /\ (2 <= k <= m + 2)%Z.
Proof.
  intros H U. pose proof (pick_lt m x ltac:(lia) U) as P. destruct (unit_double_R x U) as [Fx Rx].
  destruct (ofZ_BR m ltac:(lia)) as [Vn Fn]. destruct (ofZ_BR 2 ltac:(lia)) as [V2 F2].
  destruct (mul_BR (F_ofZ m) x Fn Fx) as [M1 M2].
  { rewrite Vn. rewrite Rabs_pos_eq by apply P. eapply Rlt_trans; [apply P|]. apply big_enough. lia. }
  rewrite Vn in M1. set (r := rnd (IZR m * BR x)) in *.
  assert (B : IZR 2 <= rnd (r + 2) <= IZR (m + 2)).
  { split.
    - apply Rle_trans with (rnd (IZR 2)); [rewrite round_generic; [lra|apply valid_rnd_round_mode|apply G_int; lia]|]. apply round_le; [exact vfx|apply valid_rnd_round_mode|]. destruct P as [P1 P2]. lra.
    - rewrite <- (round_generic radix2 fx (round_mode mode_NE) (IZR (m + 2))) by (apply G_int; lia). apply round_le; [exact vfx|apply valid_rnd_round_mode|rewrite plus_IZR; lra]. }
  destruct (add_BR (F_ofZ m * x) (F_ofZ 2) M2 F2) as [A1 A2].
  { rewrite M1, V2. rewrite Rabs_pos_eq by lra. eapply Rle_lt_trans; [apply B|]. apply big_enough. lia. }
  rewrite M1, V2 in A1. exists (Zfloor (rnd (r + 2))).
  assert (K : (2 <= Zfloor (rnd (r + 2)) <= m + 2)%Z).
  { split; [apply Zfloor_lub; apply B|]. apply le_IZR. eapply Rle_trans; [apply Zfloor_lb|apply B]. }
  split; [|exact K]. unfold trunc_u32. cbn [nfloor NumF]. rewrite floor_BR, A1 by exact A2.
  destruct (Z.leb_spec 0 (Zfloor (rnd (r + 2)))); [|lia]. destruct (Z.ltb_spec (Zfloor (rnd (r + 2))) (2 ^ 32)); [reflexivity|lia].
Qed.

Lemma pick_cell_near lm n x : (1 <= n < 2 ^ 32)%Z -> unit_double x ->
  exists k, trunc_u32 (N := NumF lm) (PrimFloat.mul (F_ofZ n) x) = Ok k /\ near_cell n (BR x) k.
Proof.
  intros H U. destruct (pick_cell lm n x H U) as (k & Ek & K & _ & Dk). pose proof (pick_near n x H U) as Q. cbv zeta in Q. rewrite <- Dk in Q.
  exists k. split; [exact Ek|]. split; [exact K|]. assert (N1 : 0 < IZR n) by (apply IZR_lt; lia).
  replace (/ 2 ^ 53) with (bpow radix2 (-53)) by (change (bpow radix2 (-53)) with (/ IZR (2 ^ 53)); f_equal; rewrite pow_IZR; reflexivity).
  split.
  - apply Rmult_le_reg_l with (IZR n); [exact N1|]. replace (IZR n * (IZR k / IZR n - bpow radix2 (-53))) with (IZR k - IZR n * bpow radix2 (-53)) by (field; lra). apply Q.
  - apply Rmult_lt_reg_l with (IZR n); [exact N1|]. replace (IZR n * ((IZR k + 1) / IZR n)) with (IZR k + 1) by (field; lra). apply Q.
Qed.
Lemma pickF lm : forall n x, (1 <= n < 2 ^ 32)%Z -> unit_double x -> exists k, @trunc_u32 float (NumF lm) (@nmul _ (NumF lm) (@nofZ _ (NumF lm) n) x) = Ok k /\ (0 <= k < n)%Z.
Proof. intros n x H U. destruct (pick_cell lm n x H U) as (k & Ek & K & _). eauto. Qed.
Lemma pick2F lm : forall n x, (6 <= n < 2 ^ 32)%Z -> unit_double x ->
  exists k, @trunc_u32 float (NumF lm) (@nadd _ (NumF lm) (@nmul _ (NumF lm) (@nofZ _ (NumF lm) (n - 4)) x) (@nofZ _ (NumF lm) 2)) = Ok k /\ (0 <= k < n)%Z.
Proof. intros n x H U. destruct (pick_shift lm (n - 4) x ltac:(lia) U) as (k & Ek & K). exists k. split; [exact Ek|lia]. Qed.

Lemma coh_safeF lm a c E ds : @make_coh _ (NumF lm) a = Ok c -> (0 < sizeZ (c_edges c))%Z -> (1 <= length ds)%nat -> exists r rest, @coh_sample _ (NumF lm) c E ds = Ok (r, rest).
Proof. intros M. apply (@coh_safe _ (NumF lm)). eapply make_coh_shape; eassumption. Qed.
Lemma inco_safeF lm a d E ds : @make_inco _ (NumF lm) a = Ok d -> (2 <= sizeZ (ie_in d))%Z -> Forall unit_double ds -> (2 <= length ds)%nat -> exists r rest, @inco_sample _ (NumF lm) d E ds = Ok (r, rest).
Proof. intros M P. apply (@inco_safe _ (NumF lm) unit_double (pickF lm) (pick2F lm)); [|exact P]. apply (make_inco_shape a d M). lia. Qed.
Lemma dce_safeF lm a d E ds : @make_dce _ (NumF lm) a = Ok d -> (0 < sizeZ (d_in d))%Z -> (0 < d_noe d)%Z -> (0 < d_nmu d)%Z -> Forall unit_double ds -> (3 <= length ds)%nat ->
  exists r rest, @dce_sample _ (NumF lm) d E ds = Ok (r, rest).
Proof. intros M P1 P2 P3. apply (@dce_safe _ (NumF lm) unit_double (pickF lm) (pick2F lm)). apply (make_dce_shape a d M P1 P2 P3). Qed.
Lemma dce_entryF lm a d E x y ds : @make_dce _ (NumF lm) a = Ok d -> (0 < sizeZ (d_in d))%Z -> (0 < d_noe d)%Z -> (0 < d_nmu d)%Z -> d_skewed d = false -> unit_double x -> unit_double y ->
  exists k j r, near_cell (d_nmu d) (BR x) k /\ near_cell (d_noe d) (BR y) j /\ @dce_sample _ (NumF lm) d E (x :: y :: ds) = Ok (r, ds) /\ @from_entry _ (NumF lm) d E j k r.
Proof.
  intros M P1 P2 P3 Q X Y. pose proof (make_dce_shape a d M P1 P2 P3) as V. pose proof V as (S1 & S2 & _).
  destruct (pick_cell_near lm (d_nmu d) x ltac:(lia) X) as (k & Ek & K). destruct (pick_cell_near lm (d_noe d) y ltac:(lia) Y) as (j & Ej & J).
  destruct (@dce_entry _ (NumF lm) unit_double (pickF lm) (pick2F lm) d E x y ds k j V Q Ek (proj1 K) Ej (proj1 J)) as (r & R1 & R2). exists k, j, r. auto.
Qed.
Lemma cedc_safeF lm a u d E ds : @make_cedc _ (NumF lm) a u = Ok d -> (2 <= sizeZ (ce_in d))%Z -> (forall t, In t (ce_tables d) -> (2 <= sizeZ (ct_energy t))%Z) -> Forall unit_double ds -> (4 <= length ds)%nat ->
  exists r rest, @cedc_sample _ (NumF lm) d E ds = Ok (r, rest).
Proof. intros M P. apply (@cedc_safe _ (NumF lm) unit_double (pickF lm) (pick2F lm)); [|exact P]. apply (make_cedc_shapeT a u d M). lia. Qed.
Lemma bins_safeF lm bounds b xi : @make_bins _ (NumF lm) bounds = Ok b -> unit_double xi -> exists mu, @bins_sample _ (NumF lm) b xi = Ok mu.
Proof.
  unfold make_bins. intros M U. destruct (Nat.eqb_spec (length bounds) 33) as [L|]; [|discriminate M]. cbn [guard bind] in M.
  assert (b = bounds). { destruct (is_sorted bounds); [|discriminate M]. cbn [guard bind] in M. destruct (atZ bounds 0); try discriminate M. cbn [bind] in M. destruct (nltb _ _); [discriminate M|].
    destruct (atZ bounds 32); try discriminate M. cbn [bind] in M. destruct (nltb _ _); [discriminate M|]. now injection M. }
  subst b. destruct (pick_cell lm 33 xi ltac:(lia) U) as (k & _ & K & F & _).
  unfold bins_sample, floor_size. cbn [nfloor nmul nofZ NumF]. rewrite F.
  replace ((0 <=? k)%Z && (k <? 2 ^ 64)%Z)%bool with true by (symmetry; apply andb_true_intro; split; [apply Z.leb_le|apply Z.ltb_lt]; lia). cbn [bind].
  replace (k =? 33)%Z with false by (symmetry; apply Z.eqb_neq; lia). destruct (L_Search.atZ_ok bounds k) as [m ->]; [unfold sizeZ; lia|]. cbn [bind]. eauto.
Qed.
Lemma product_below n x : (1 <= n <= 2 ^ 53)%Z -> unit_double x -> 0 <= BR (PrimFloat.mul (F_ofZ n) x) < IZR n.
Proof.
  intros H U. pose proof (pick_lt n x H U) as P. destruct (unit_double_R x U) as [Fx Rx]. destruct (ofZ_BR n ltac:(lia)) as [Vn Fn].
  destruct (mul_BR (F_ofZ n) x Fn Fx) as [M1 M2].
  { rewrite Vn. rewrite Rabs_pos_eq by apply P. eapply Rlt_trans; [apply P|]. apply big_enough. lia. }
  rewrite M1, Vn. exact P.
Qed.
