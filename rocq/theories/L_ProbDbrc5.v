(** * The law of the flattened trial and of the resonance rejection loop *)
From Coq Require Import Reals Lra Lia List Arith ZifyBool ZifyNat. From Coquelicot Require Import Coquelicot.
From Verif Require Import Base NumR M_Grid M_Kin S_Kin M_Doppler S_Doppler S_ProbSvt S_Grid L_Grid L_Xs L_Xs2 L_Xs3 L_Search L_SearchR L_Doppler L_Legendre L_Interp2 L_Spectra L_Spectra2 S_Prob L_Prob L_ProbEv L_Prob2 L_Gauss L_ProbMw L_ProbLaw L_ProbLoop L_ProbSvt L_ProbSvt2 L_ProbSvt3 L_ProbSvt4 L_ProbSvt5 L_ProbSvt6 L_ProbSvt7 L_ProbDbrc L_ProbDbrc2 L_ProbDbrc3 L_ProbDbrc4. Import ListNotations.
Local Open Scope R_scope.
Local Notation iR := (@is_RInt R_NormedModule).

Lemma tot_scal y H t S0 : 0 < y -> (forall x, 0 <= x -> continuity_pt H x) -> 0 <= S0 -> tot y (fun w => t * H w) S0 = t * tot y H S0.
Proof.
  intros Hy hc HS. apply (@is_RInt_unique R_CompleteNormedModule). pose proof (@is_RInt_scal R_NormedModule _ _ _ t _ (tot_int y H hc S0 HS)) as I. eapply iR_eq; [|eapply is_RInt_ext; [|exact I]].
  - reflexivity.
  - intros w _. unfold scal. cbn. unfold mult. cbn. match goal with |- ?a = ?b => change (@eq R a b) end. ring.
Qed.
Lemma tot_grows y H a b : 0 < y -> (forall x, 0 <= x -> continuity_pt H x) -> (forall x, 0 < x -> 0 <= H x) -> 0 <= a -> a <= b -> tot y H a <= tot y H b.
Proof.
  intros Hy hc Hp Ha Hb. assert (Ia := tot_int y H hc a Ha). assert (Ib := tot_int y H hc b ltac:(lra)).
  assert (Iab : iR (fun w => H w * mixd y w) a b (tot y H b - tot y H a)). { eapply iR_eq; [|apply (@is_RInt_Chasles R_NormedModule _ a 0 b); [apply is_RInt_swap; exact Ia|exact Ib]]. unfold plus, opp. cbn. ring. }
  assert (0 <= tot y H b - tot y H a); [|lra]. apply (is_RInt_le (fun _ => 0) (fun w => H w * mixd y w) a b); [exact Hb| |exact Iab|].
  - eapply iR_eq; [|apply is_RInt_const]. unfold scal. cbn. unfold mult. cbn. ring.
  - intros w Hw. pose proof (mixd_pos y Hy w ltac:(lra)). specialize (Hp w ltac:(lra)). nra.
Qed.
Section Law.
  Variables (Ein kT awr : R).
  Hypotheses (HE : 0 < Ein) (Hk : 0 < kT) (Ha : 0 < awr).
  Let lo := window_low Ein kT awr.
  Let hi := window_high Ein kT awr.
  Variables (s : R -> R) (Mx : R).
  Let y := reduced Ein kT awr.
  Let b := sqrt (awr / kT).
  Let ylo := Rmax 0 (y - 4).
  Let yhi := y + 4.
  Hypothesis HMx : 0 < Mx.
  Hypothesis Bs : forall E, lo <= E <= hi -> 0 <= s E <= Mx.
  Hypothesis Cs : continuous_between s lo hi.
  Hypothesis Ps : exists E0, lo <= E0 <= hi /\ 0 < s E0.
  Notation sg' := (sg Ein kT awr s).
  Definition KK : R -> R := K4 ylo yhi Mx sg'.
  Let Y : 0 < y := ypos Ein kT awr HE Hk Ha.
  Let Lo : 0 <= ylo < y := ylo_B Ein kT awr HE Hk Ha.
  Let Hi : y < yhi := yhi_B Ein kT awr.
  Let Sc : forall t, continuous sg' t := sg_c Ein kT awr HE Hk Ha s Cs.
  Let SB : forall t, 0 <= t -> 0 <= sg' t <= Mx := sg_B Ein kT awr HE Hk Ha s Mx Bs.
  Lemma mK_c M : -1 <= M <= 1 -> forall w, 0 <= w -> continuity_pt (mean y KK M) w.
  Proof. intros HM w Hw. apply (mean4_c y ylo yhi Mx sg' Y Lo Hi HMx Sc SB M HM w Hw). Qed.
  Lemma mK_pos w : 0 < w -> 0 <= mean y KK 1 w.
  Proof.
    intros Hw. assert (H1 : -1 <= 1 <= 1) by lra. assert (T1 : 0 <= 1 <= 1) by lra. pose proof (prob_bounds _ _ _ (ev4_prob y ylo yhi Mx sg' Y Lo Hi HMx Sc SB (vec R) (mkv kT awr) 1 1 w H1 T1 Hw)) as P. change (K4 ylo yhi Mx sg') with KK in P. lra.
  Qed.
  Notation T := (dT Ein kT awr s Mx).
  Lemma trial_hit S0 M t (B : vec R -> Prop) : 0 < S0 -> -1 <= M <= 1 -> 0 <= t <= 1 ->
    (forall w mu z, 0 < w -> -1 < mu < 1 -> 0 < z < 1 -> (B (mkv kT awr w mu z) <-> w <= S0 /\ mu <= M /\ z <= t)) ->
    law T (fun o => exists v, o = Some v /\ B v) (t * tot y (mean y KK M) S0).
  Proof.
    intros HS HM Ht HB. rewrite <- (tot_scal y _ t S0 Y (mK_c M HM)) by lra. rewrite (tot_mix y _ (fun x Hx => scaled_c t _ x (mK_c M HM x Hx))) by lra. pose proof (cc_range y Y).
    apply (law_choose _ (d1 Ein kT awr s Mx) (d2 Ein kT awr s Mx) _ (cc y)); [lra|apply dT_asks|intros; reflexivity| |].
    - apply (dg_hit y ylo yhi Mx sg' Y Lo Hi HMx Sc SB (vec R) (mkv kT awr) 2 g2 g2_dens g2_F g2_pos g2_prob (fun s _ => g2_dens_int s) g2_dens_pos (fun x _ => g2_dens_c x) S0 M t B HS HM Ht HB).
    - apply (dg_hit y ylo yhi Mx sg' Y Lo Hi HMx Sc SB (vec R) (mkv kT awr) 3 m3 mx_dens MX m3_pos m3_prob mx_dens_int mx_dens_pos (fun x _ => mx_dens_c x) S0 M t B HS HM Ht HB).
  Qed.
  Lemma trial_miss : exists a : R, is_lim (tot y (mean y KK 1)) p_infty a /\ law T (fun o => o = None) (1 - a) /\ law T (fun o => exists v, o = Some v /\ True) a.
  Proof.
    pose proof (cc_range y Y) as C. assert (H1 : -1 <= 1 <= 1) by lra.
    destruct (dg_miss y ylo yhi Mx sg' Y Lo Hi HMx Sc SB (vec R) (mkv kT awr) 2 g2 g2_dens g2_F g2_pos g2_prob (fun s _ => g2_dens_int s) g2_dens_pos (fun x _ => g2_dens_c x) g2_lim) as (a1 & L1 & N1 & S1).
    destruct (dg_miss y ylo yhi Mx sg' Y Lo Hi HMx Sc SB (vec R) (mkv kT awr) 3 m3 mx_dens MX m3_pos m3_prob mx_dens_int mx_dens_pos (fun x _ => mx_dens_c x) mx_lim) as (a2 & L2 & N2 & S2).
    exists (cc y * a1 + (1 - cc y) * a2). split; [|split].
    - apply (is_lim_ext_loc (fun s => cc y * part g2_dens (fun w => 1 * mean y KK 1 w) s + (1 - cc y) * part mx_dens (fun w => 1 * mean y KK 1 w) s)).
      + exists 0. intros S0 HS. rewrite <- (tot_mix y _ (fun x Hx => scaled_c 1 _ x (mK_c 1 H1 x Hx))) by lra. rewrite (tot_scal y _ 1 S0 Y (mK_c 1 H1)) by lra. ring.
      + apply (is_lim_plus' (fun s => cc y * part g2_dens (fun w => 1 * mean y KK 1 w) s) (fun s => (1 - cc y) * part mx_dens (fun w => 1 * mean y KK 1 w) s)); [apply (is_lim_scal_l _ (cc y) p_infty a1 L1)|apply (is_lim_scal_l _ (1 - cc y) p_infty a2 L2)].
    - replace (1 - (cc y * a1 + (1 - cc y) * a2)) with (cc y * (1 - a1) + (1 - cc y) * (1 - a2)) by ring. apply (law_choose _ (d1 Ein kT awr s Mx) (d2 Ein kT awr s Mx) _ (cc y)); [lra|apply dT_asks|intros; reflexivity|exact N1|exact N2].
    - apply (law_choose _ (d1 Ein kT awr s Mx) (d2 Ein kT awr s Mx) _ (cc y)); [lra|apply dT_asks|intros; reflexivity|exact S1|exact S2].
  Qed.
  (** the trial has a chance *)
  Lemma speed_pos : exists v, ylo < v < yhi /\ 0 < sg' v.
  Proof.
    destruct Ps as (E0 & HE0 & P0). pose proof (b_pos kT awr Hk Ha) as Bp. fold b in Bp. destruct (window_order Ein kT awr ltac:(lra) Hk Ha) as [[W1 W2] W3]. fold lo hi in W1, W2, W3.
    set (t0 := b * sqrt E0). assert (T0 : 0 <= t0) by (apply Rmult_le_pos; [lra|apply sqrt_pos]).
    assert (Et : t0 * t0 / (b * b) = E0) by (unfold t0; replace (b * sqrt E0 * (b * sqrt E0)) with (b * b * (sqrt E0 * sqrt E0)) by ring; rewrite sqrt_sqrt by lra; field; lra).
    pose proof (win_energy Ein kT awr HE Hk Ha t0 T0) as We. fold b lo hi y in We. fold ylo yhi in We. rewrite Et in We. pose proof (proj1 (win_true ylo yhi t0) (proj2 We HE0)) as Hw.
    assert (S0 : sg' t0 = s E0) by (unfold sg; fold b; rewrite Et, clampE_id; [reflexivity|exact HE0]).
    pose proof (Sc t0) as Ct. apply continuity_pt_filterlim in Ct. destruct (Ct (s E0) P0) as (d & Hd & Hc). unfold dist in Hc. cbn in Hc. unfold R_dist in Hc.
    set (e := Rmin (1 / 2) (d / (2 * (Rabs (y - t0) + 1)))). pose proof (Rabs_pos (y - t0)) as A0. assert (Q : 0 < d / (2 * (Rabs (y - t0) + 1))) by (apply Rdiv_lt_0_compat; lra).
    assert (E1 : 0 < e <= 1 / 2) by (unfold e; split; [apply Rmin_glb_lt; lra|apply Rmin_l]). assert (E2 : e * (2 * (Rabs (y - t0) + 1)) <= d) by (apply Rle_div_r; [lra|unfold e; apply Rmin_r]).
    exists (t0 + e * (y - t0)). split; [split; nra|].
    assert (D : Rabs (sg' (t0 + e * (y - t0)) - s E0) < s E0).
    { destruct (Req_dec (t0 + e * (y - t0)) t0) as [Eq|Ne]; [rewrite Eq, S0, Rminus_diag_eq, Rabs_R0; [exact P0|reflexivity]|]. rewrite <- S0 at 1. apply Hc. split; [split; [exact Logic.I|auto]|].
      replace (t0 + e * (y - t0) - t0) with (e * (y - t0)) by ring. rewrite Rabs_mult, (Rabs_pos_eq e) by lra. nra. }
    apply Rabs_lt_between in D. lra.
  Qed.
  Lemma mean_pos : exists w, 0 < w /\ 0 < mean y KK 1 w.
  Proof.
    destruct speed_pos as (v & Hv & Pv). set (q := Rmax y v). assert (Q0 : 0 < q) by (unfold q; pose proof (Rmax_l y v); lra). assert (V0 : 0 < v) by lra.
    exists (q * q). split; [nra|].
    set (u := (y * y + q * q - v * v) / (2 * y * q)). assert (PQ : 0 < 2 * y * q) by nra.
    assert (U : -1 < u < 1). { unfold u. split; [apply Rlt_div_r|apply Rlt_div_l]; try lra; unfold q, Rmax; destruct (Rle_dec y v); nra. }
    assert (RU : rx y q u = v). { unfold rx, u. replace (y * y + q * q - 2 * y * q * ((y * y + q * q - v * v) / (2 * y * q))) with (v * v) by (field; lra). apply sqrt_square. lra. }
    assert (Cg : continuous (fun mu => sg' (rx y q mu)) u) by (apply (c_comp sg' (rx y q)); [apply rx_cont_mu|apply Sc]). apply continuity_pt_filterlim in Cg. destruct (Cg (sg' v / 2) ltac:(lra)) as (d1 & D1 & C1).
    assert (Cr : continuous (rx y q) u) by apply rx_cont_mu. apply continuity_pt_filterlim in Cr. destruct (Cr (Rmin (v / 2) (Rmin (v - ylo) (yhi - v))) ltac:(repeat apply Rmin_glb_lt; lra)) as (d2 & D2 & C2).
    unfold dist in C1, C2. cbn in C1, C2. unfold R_dist in C1, C2.
    set (d := Rmin (Rmin d1 d2) (Rmin (1 - u) (u + 1)) / 2). assert (D : 0 < d /\ d < d1 /\ d < d2 /\ d < 1 - u /\ d < u + 1).
    { assert (0 < Rmin (Rmin d1 d2) (Rmin (1 - u) (u + 1))) by (repeat apply Rmin_glb_lt; lra). pose proof (Rmin_l (Rmin d1 d2) (Rmin (1 - u) (u + 1))). pose proof (Rmin_r (Rmin d1 d2) (Rmin (1 - u) (u + 1))). pose proof (Rmin_l d1 d2). pose proof (Rmin_r d1 d2). pose proof (Rmin_l (1 - u) (u + 1)). pose proof (Rmin_r (1 - u) (u + 1)). unfold d. repeat split; lra. }
    set (c := v / 2 * (sg' v / 2 / Mx) / (q + y)). assert (C0 : 0 < c) by (unfold c; apply Rdiv_lt_0_compat; [apply Rmult_lt_0_compat; [lra|apply Rdiv_lt_0_compat; lra]|lra]).
    assert (Near : forall mu, Rabs (mu - u) < d -> Rabs (sg' (rx y q mu) - sg' v) < sg' v / 2 /\ Rabs (rx y q mu - v) < Rmin (v / 2) (Rmin (v - ylo) (yhi - v))).
    { intros mu Hm. destruct (Req_dec mu u) as [->|Ne]; [rewrite RU, !Rminus_diag_eq, Rabs_R0 by reflexivity; split; [lra|repeat apply Rmin_glb_lt; lra]|].
      rewrite RU in C1, C2. split; [apply C1|apply C2]; (split; [split; [exact Logic.I|auto]|lra]). }
    assert (H1 : -1 <= 1 <= 1) by lra. destruct (wK_sub y ylo yhi Y Lo Hi (sK Mx sg') (sK_c Mx sg' Sc)) as (Phi & SK). pose proof (acc_mean y Y KK Phi 1 SK H1 (q * q)) as I. replace ((1 + 1) / 2) with 1 in I by lra.
    assert (Bk : forall t, 0 <= t -> 0 <= KK t <= t) by (intros t Ht; apply (wK_B ylo yhi (sK Mx sg') (sK_B Mx sg' HMx SB) t Ht)).
    set (p1 := (u + 1 - d) / 2). set (p2 := (u + 1 + d) / 2). assert (P12 : 0 < p1 < p2 /\ p2 < 1) by (unfold p1, p2; lra).
    set (st := fun m => if Rlt_dec p1 m then if Rlt_dec m p2 then c else 0 else 0).
    assert (J : iR st 0 1 (d * c)).
    { replace (d * c) with ((p1 - 0) * 0 + ((p2 - p1) * c + (1 - p2) * 0)) by (unfold p1, p2; field).
      eapply iR_chasles; [apply (iR_const_on _ 0 p1 0); [lra|]|eapply iR_chasles; [apply (iR_const_on _ p1 p2 c); [lra|]|apply (iR_const_on _ p2 1 0); [lra|]]]; intros m Hm; unfold st; destruct (Rlt_dec p1 m); try lra; destruct (Rlt_dec m p2); try lra. }
    apply Rlt_le_trans with (d * c); [nra|]. apply (is_RInt_le st (acc y KK (q * q)) 0 1 _ _ ltac:(lra) J I). intros m Hm. pose proof (acc_bounds y Y KK Bk (q * q) m Hm) as AB.
    unfold st. destruct (Rlt_dec p1 m) as [M1|]; [|lra]. destruct (Rlt_dec m p2) as [M2|]; [|lra].
    assert (Nr : Rabs (2 * m - 1 - u) < d) by (apply Rabs_lt_between; unfold p1, p2 in *; lra). destruct (Near _ Nr) as [S1 S2]. apply Rabs_lt_between in S1, S2.
      pose proof (Rmin_l (v / 2) (Rmin (v - ylo) (yhi - v))). pose proof (Rmin_r (v / 2) (Rmin (v - ylo) (yhi - v))). pose proof (Rmin_l (v - ylo) (yhi - v)). pose proof (Rmin_r (v - ylo) (yhi - v)).
      unfold acc. rewrite sqrt_square by lra. unfold KK, K4, wK. rewrite (proj2 (win_true ylo yhi _)) by lra. unfold c, sK. apply Rmult_le_compat_r; [left; apply Rinv_0_lt_compat; lra|].
      apply Rmult_le_compat; [lra|apply Rlt_le, Rdiv_lt_0_compat; lra|lra|]. apply Rmult_le_compat_r; [left; apply Rinv_0_lt_compat; lra|lra].
  Qed.
  Lemma tot_pos4 : exists S0, 0 < S0 /\ 0 < tot y (mean y KK 1) S0.
  Proof.
    destruct mean_pos as (w1 & W1 & P1). assert (H1 : -1 <= 1 <= 1) by lra. destruct (mK_c 1 H1 w1 ltac:(lra) (mean y KK 1 w1) P1) as (d & Hd & Hc). unfold dist in Hc. cbn in Hc. unfold R_dist in Hc.
    exists (w1 + d). split; [lra|]. pose proof (tot_grows y (mean y KK 1) 0 w1 Y (mK_c 1 H1) mK_pos ltac:(lra) ltac:(lra)) as G.
    assert (T0 : tot y (mean y KK 1) 0 = 0) by (unfold tot; apply (@RInt_point R_CompleteNormedModule)). rewrite T0 in G.
    assert (Ia := tot_int y _ (mK_c 1 H1) w1 ltac:(lra)). assert (Ib := tot_int y _ (mK_c 1 H1) (w1 + d) ltac:(lra)).
    assert (Iab : iR (fun w => mean y KK 1 w * mixd y w) w1 (w1 + d) (tot y (mean y KK 1) (w1 + d) - tot y (mean y KK 1) w1)). { eapply iR_eq; [|apply (@is_RInt_Chasles R_NormedModule _ w1 0 (w1 + d)); [apply is_RInt_swap; exact Ia|exact Ib]]. unfold plus, opp. cbn. ring. }
    assert (Q : 0 < RInt (fun w => mean y KK 1 w * mixd y w) w1 (w1 + d)).
    { apply RInt_gt_0; [lra| |].
      - intros w Hw. apply Rmult_lt_0_compat; [|apply mixd_pos; lra]. assert (D : Rabs (mean y KK 1 w - mean y KK 1 w1) < mean y KK 1 w1). { apply Hc. split; [split; [exact Logic.I|lra]|]. rewrite Rabs_pos_eq; lra. } apply Rabs_lt_between in D. lra.
      - intros w Hw. apply (@continuous_mult R_UniformSpace R_AbsRing); [|apply mixd_c]. apply continuity_pt_filterlim, mK_c; lra. }
    rewrite (@is_RInt_unique R_CompleteNormedModule _ _ _ _ Iab) in Q. lra.
  Qed.
  (** the kernel in physical units *)
  Lemma KK_phys t : 0 <= t -> KK (b * t) = b / Mx * resonance_kernel s Ein kT awr t.
  Proof.
    intros Ht. pose proof (b_pos kT awr Hk Ha) as Bp. fold b in Bp. unfold KK, K4, wK, resonance_kernel. fold lo hi. pose proof (win_energy Ein kT awr HE Hk Ha (b * t) ltac:(nra)) as We. fold b lo hi y in We. fold ylo yhi in We. assert (E : b * t * (b * t) / (b * b) = t * t) by (field; lra). rewrite E in We.
    destruct (win ylo yhi (b * t)).
    - destruct (proj1 We eq_refl) as [W1 W2]. destruct (Rle_dec lo (t * t)); [|lra]. destruct (Rle_dec (t * t) hi); [|lra]. unfold sK, sg. fold b. rewrite E. rewrite clampE_id by (fold lo hi; lra). field. lra.
    - destruct (Rle_dec lo (t * t)) as [W1|]; [|ring]. destruct (Rle_dec (t * t) hi) as [W2|]; [|ring]. destruct We as [_ We]. specialize (We (conj W1 W2)). discriminate.
  Qed.
  Variable all : rand R (vec R).
  Hypothesis Al : loops all T.
  Theorem dbrc_law : exists N, 0 < N /\ total_weight (resonance_kernel s Ein kT awr) Ein kT awr N /\ law all (fun _ => True) 1 /\
    forall V m A, 0 < V -> -1 <= m <= 1 -> 0 <= A <= 2 * PI -> exists J, reaction_weight (resonance_kernel s Ein kT awr) Ein kT awr V m J /\ law all (velocity_region V m A) (J / N * (A / (2 * PI))).
  Proof.
    pose proof PI_RGT_0 as PP. pose proof (b_pos kT awr Hk Ha) as Bp. pose proof (b_sq kT awr Hk Ha) as Bq. fold b in Bp, Bq. destruct trial_miss as (a & La & Ln & Ls).
    assert (Pa : 0 < a). { destruct tot_pos4 as (S0 & HS & PS). apply Rlt_le_trans with (1 := PS). apply (is_lim_le_loc (fun _ => tot y (mean y KK 1) S0) (tot y (mean y KK 1)) p_infty (tot y (mean y KK 1) S0) a); [exists S0; intros z Hz; apply tot_grows; [exact Y|apply mK_c; lra|exact mK_pos|lra|lra]|apply is_lim_const|exact La]. }
    assert (Hq : 0 < b / Mx) by (apply Rdiv_lt_0_compat; lra). set (G := gamma Ein kT awr (b / Mx)). assert (Gp : 0 < G) by (apply gamma_pos; assumption).
    destruct (wK_sub y ylo yhi Y Lo Hi (sK Mx sg') (sK_c Mx sg' Sc)) as (Phi & SK).
    assert (W : forall M V, -1 <= M <= 1 -> 0 < V -> exists J, reaction_weight (resonance_kernel s Ein kT awr) Ein kT awr V M J /\ tot y (mean y KK M) (b * V * (b * V)) = G * J).
    { intros M V HM HV. apply (weight_phys Ein kT awr HE Hk Ha KK Phi (resonance_kernel s Ein kT awr) (b / Mx) M SK (wK_B ylo yhi (sK Mx sg') (sK_B Mx sg' HMx SB)) (wK_c y ylo yhi Lo Hi (sK Mx sg') (sK_c Mx sg' Sc)) KK_phys Hq HM V HV). }
    exists (a / G). split; [apply Rdiv_lt_0_compat; assumption|]. split; [|split].
    - intros eps He. apply is_lim_spec in La. assert (Pe : 0 < eps * G) by nra. destruct (La (mkposreal _ Pe)) as (S0 & HS). cbn [pos] in HS. exists (Rmax 1 (Rmax S0 0 / (b * b) + 1)). intros V J HV HJ. pose proof (Rmax_l 1 (Rmax S0 0 / (b * b) + 1)). pose proof (Rmax_r 1 (Rmax S0 0 / (b * b) + 1)).
      destruct (W 1 V ltac:(lra) ltac:(lra)) as (J' & HJ' & E). rewrite (weight_unique Ein kT awr (resonance_kernel s Ein kT awr) 1 V J J' ltac:(lra) HJ HJ'). assert (BB : 0 < b * b) by nra. assert (S0 < b * V * (b * V)). { assert (Rmax S0 0 / (b * b) < V) as Q by lra. apply Rlt_div_l in Q; [|exact BB]. pose proof (Rmax_l S0 0). assert (V * 1 <= V * V) by (apply Rmult_le_compat_l; lra). assert (V * (b * b) <= V * V * (b * b)) by (apply Rmult_le_compat_r; lra). lra. }
      specialize (HS _ H1). rewrite E in HS. replace (J' - a / G) with ((G * J' - a) / G) by (field; lra). unfold Rdiv. rewrite Rabs_mult, (Rabs_pos_eq (/ G)) by (left; apply Rinv_0_lt_compat; lra). apply Rlt_div_l; [lra|]. exact HS.
    - replace 1 with (a / a) by (field; lra). apply (law_loop all T _ a a (dT_steady _ _ _ _ _) (dT_asks _ _ _ _ _) Al Ls Ln Pa).
    - intros V m A HV Hm HA. destruct (W m V Hm HV) as (J & HJ & E). exists J. split; [exact HJ|]. assert (BV : 0 < b * V * (b * V)) by (assert (0 < b * V) by nra; nra).
      replace (J / (a / G) * (A / (2 * PI))) with (A / (2 * PI) * tot y (mean y KK m) (b * V * (b * V)) / a) by (rewrite E; field; lra).
      apply (law_loop all T _ a _ (dT_steady _ _ _ _ _) (dT_asks _ _ _ _ _) Al); [|exact Ln|exact Pa]. apply trial_hit; [exact BV|exact Hm|split; [apply Rle_div_r; lra|apply Rle_div_l; lra]|].
      intros x2 mu z X2 Hmu Hz. unfold mkv, build. cbn [fst snd].
      assert (Hs : 0 < x2 * kT / awr) by (apply Rdiv_lt_0_compat; nra). rewrite region_iff; [|lra|apply sqrt_lt_R0; exact Hs|exact Hmu|split; nra|exact HA].
      assert (E1 : target_speed kT awr x2 <= V <-> x2 <= b * V * (b * V)). { replace (b * V * (b * V)) with (awr / kT * (V * V)) by (rewrite <- Bq; ring). unfold target_speed. split; intros Q.
        - assert (Q2 : sqrt (x2 * kT / awr) * sqrt (x2 * kT / awr) <= V * V) by (apply Rmult_le_compat; try exact Q; apply sqrt_pos). rewrite sqrt_sqrt in Q2 by lra. apply (Rle_div_l (x2 * kT) (V * V) awr) in Q2; [|lra]. replace (awr / kT * (V * V)) with (V * V * awr / kT) by (field; lra). apply (Rle_div_r x2 (V * V * awr) kT); [lra|]. lra.
        - rewrite <- (sqrt_square V) by lra. apply sqrt_le_1_alt. apply Rle_div_l; [lra|]. replace (awr / kT * (V * V)) with (V * V * awr / kT) in Q by (field; lra). apply Rle_div_r in Q; lra. }
      assert (E2 : 2 * PI * z <= A <-> z <= A / (2 * PI)) by (split; intros Q; [apply Rle_div_r; lra|apply Rle_div_r in Q; lra]). rewrite E1, E2. tauto.
  Qed.
End Law.
