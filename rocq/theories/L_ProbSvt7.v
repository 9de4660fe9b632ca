(** * The law of the target velocity that the free-gas sampler returns *)
From Coq Require Import Reals Lra Lia List Arith ZifyBool ZifyNat. From Coquelicot Require Import Coquelicot.
From Verif Require Import Base NumR M_Kin S_Kin S_Doppler S_ProbSvt L_Search L_Doppler L_Legendre L_Interp2 L_Spectra L_Spectra2 S_Prob L_Prob L_ProbEv L_Prob2 L_Gauss L_ProbMw L_ProbLaw L_ProbLoop L_ProbSvt L_ProbSvt2 L_ProbSvt3 L_ProbSvt4 L_ProbSvt5 L_ProbSvt6. Import ListNotations.
Local Open Scope R_scope.

Lemma angle_inj a b : 0 < a < 2 * PI -> 0 <= b <= 2 * PI -> sin a = sin b -> cos a = cos b -> a = b.
Proof.
  intros Ha Hb S C. assert (D : cos (a - b) = 1). { rewrite cos_minus, S, C. pose proof (sin2_cos2 b) as Q. unfold Rsqr in Q. lra. }
  assert (Z : sin ((a - b) / 2) = 0). { replace (a - b) with (2 * ((a - b) / 2)) in D by field. rewrite cos_2a_sin in D. nra. }
  destruct (Rtotal_order a b) as [L|[E|L]]; [|exact E|]; exfalso.
  - assert (P : 0 < sin ((b - a) / 2)) by (apply sin_gt_0; lra). replace ((b - a) / 2) with (- ((a - b) / 2)) in P by field. rewrite sin_neg in P. lra.
  - assert (P : 0 < sin ((a - b) / 2)) by (apply sin_gt_0; lra). lra.
Qed.
Lemma region_iff V m A s mu phi : m <= 1 -> 0 < s -> -1 < mu < 1 -> 0 < phi < 2 * PI -> 0 <= A <= 2 * PI -> (velocity_region V m A (velocity s mu phi) <-> s <= V /\ mu <= m /\ phi <= A).
Proof.
  intros Hm1 Hs Hm Hp HA. split.
  - intros (s' & mu' & phi' & E & H1 & H2 & H3). unfold velocity in E. injection E as E1 E2 E3. set (c := sqrt (1 - mu * mu)) in *. set (c' := sqrt (1 - mu' * mu')) in *.
    assert (Pc : 0 < c) by (apply sqrt_lt_R0; nra). assert (Sc : c * c = 1 - mu * mu) by (apply sqrt_sqrt; nra). assert (Sc' : c' * c' = 1 - mu' * mu') by (apply sqrt_sqrt; nra).
    pose proof (sin2_cos2 phi) as T. pose proof (sin2_cos2 phi') as T'. unfold Rsqr in T, T'. assert (E4 : s * c * cos phi = s' * c' * cos phi') by lra.
    assert (N : forall s c mu phi, sin phi * sin phi + cos phi * cos phi = 1 -> c * c = 1 - mu * mu -> s * s = s * c * sin phi * (s * c * sin phi) + s * c * cos phi * (s * c * cos phi) + s * mu * (s * mu)).
    { clear. intros s c mu phi T Sc. replace (s * c * sin phi * (s * c * sin phi) + s * c * cos phi * (s * c * cos phi) + s * mu * (s * mu)) with (s * s * (c * c * (sin phi * sin phi + cos phi * cos phi) + mu * mu)) by ring. rewrite T, Sc. ring. }
    assert (SS : s * s = s' * s') by (rewrite (N s c mu phi T Sc), (N s' c' mu' phi' T' Sc'), E1, E3, E4; ring). assert (Es : s = s') by nra. subst s'.
    assert (Emu : mu = mu') by (apply (Rmult_eq_reg_l s); lra). subst mu'. subst c'. fold c in E1, E4.
    assert (phi = phi'). { apply angle_inj; [exact Hp|lra| |]; apply (Rmult_eq_reg_l (s * c)); try lra; apply Rgt_not_eq; nra. } subst phi'. lra.
  - intros (H1 & H2 & H3). exists s, mu, phi. repeat split; lra.
Qed.

Section Final.
  Variables Ein kT awr : R. Hypothesis HE : 0 < Ein. Hypothesis Hk : 0 < kT. Hypothesis Ha : 0 < awr.
  Let y := reduced Ein kT awr.
  Lemma all_units ds : open01 ds -> units ds. Proof. intros O d Hd. unfold open01 in O. rewrite Forall_forall in O. apply O, Hd. Qed.
  Lemma pair_run ds x2 mu r : open01 ds -> svt_all y ds = Ok ((x2, mu), r) -> 0 < x2 /\ -1 < mu < 1.
  Proof.
    intros O H. pose proof (all_units _ O) as U. apply (svt_loop_sound Ein kT awr ltac:(lra) Hk Ha) in H as (l & -> & Hr); [|exact U]. assert (Ul : units l) by (intros d Hd; apply U, in_or_app; left; exact Hd). clear - Hr Ul. induction Hr as [l z x2 mu P A|l z x2' mu' l' x2 mu P A Hr IH].
    - destruct (proposal_pos _ _ _ _ (fun d Hd => Ul d (in_or_app _ _ _ (or_introl Hd))) P) as (A1 & A2 & _). tauto.
    - apply IH. intros d Hd. apply Ul, in_or_app. right. right. exact Hd.
  Qed.
  Definition build (v : R * R) (x : R) : vec R := velocity (target_speed kT awr (fst v)) (snd v) (2 * PI * x).
  Lemma sample_pair ds w r : open01 ds -> (@svt_sample R NumR Ein kT awr ds = Ok (w, r) <-> exists v x, svt_all y ds = Ok (v, x :: r) /\ w = build v x).
  Proof.
    intros O. unfold svt_sample. change (@nsqrt R NumR (ndiv (nmul awr Ein) kT)) with y. pose proof PI_RGT_0 as PP.
    assert (B : forall x2 mu xi, 0 < xi < 1 -> -1 < mu < 1 -> @vmul R NumR (rotate (mkVec (nofZ 0) (nofZ 0) (nofZ 1)) mu (nmul (nmul (nofZ 2) npi) xi)) (nsqrt (ndiv (nmul x2 kT) awr)) = build (x2, mu) xi).
    { intros x2 mu xi Hx Hm. change (@nsqrt R NumR (ndiv (nmul x2 kT) awr)) with (target_speed kT awr x2). change (mkVec (nofZ 0) (nofZ 0) (nofZ 1)) with (mkVec 0 0 1). change (nmul (nmul (nofZ 2) npi) xi) with (2 * PI * xi). apply rotate_z; [lra|]. split; [apply Rmult_le_pos; lra|nra]. }
    split.
    - intros H. apply rbind_ok in H as ([x2 mu] & d1 & H1 & H). apply rbind_ok in H as (xi & d2 & H2 & H). apply draw_ok in H2 as ->. apply rret_ok in H as [H ->]. exists (x2, mu), xi. split; [exact H1|]. destruct (pair_run _ _ _ _ O H1) as [_ Hm].
      destruct (loop_steady _ _ (svt_steady y) (svt_asks y) (svt_loops y) _ _ _ O H1) as (l & El & _). rewrite El in O. apply open01_app in O as [_ O]. inversion O; subst. rewrite <- B by assumption. reflexivity.
    - intros ([x2 mu] & xi & H1 & ->). destruct (pair_run _ _ _ _ O H1) as [_ Hm]. destruct (loop_steady _ _ (svt_steady y) (svt_asks y) (svt_loops y) _ _ _ O H1) as (l & El & _). assert (O' := O). rewrite El in O'. apply open01_app in O' as [_ O']. inversion O'; subst.
      unfold rbind at 1. unfold svt_all in H1. rewrite H1. cbn [bind]. unfold rbind. cbn [draw bind]. rewrite B by assumption. reflexivity.
  Qed.
  Theorem svt_velocity_law : exists N, 0 < N /\ total_weight (fun t => t) Ein kT awr N /\ law (@svt_sample R NumR Ein kT awr) (fun _ => True) 1 /\
    forall V m A, 0 < V -> -1 <= m <= 1 -> 0 <= A <= 2 * PI -> exists J, reaction_weight (fun t => t) Ein kT awr V m J /\ law (@svt_sample R NumR Ein kT awr) (velocity_region V m A) (J / N * (A / (2 * PI))).
  Proof.
    pose proof PI_RGT_0 as PP. pose proof (y_pos Ein kT awr HE Hk Ha) as Y. fold y in Y. pose proof (b_pos kT awr Hk Ha) as Bp. pose proof (b_sq kT awr Hk Ha) as Bs. set (b := sqrt (awr / kT)) in *. destruct (pair_law y Y) as (a & Pa & La & L1 & Lh).
    set (G := gamma Ein kT awr b). assert (Gp : 0 < G) by (apply gamma_pos; assumption).
    pose proof (loop_steady _ _ (svt_steady y) (svt_asks y) (svt_loops y)) as St. assert (As : asks (svt_all y)) by (intros v r X; unfold svt_all in X; rewrite (step_eq y) in X by constructor; discriminate).
    assert (W : forall M V, -1 <= M <= 1 -> 0 < V -> exists J, reaction_weight (fun t => t) Ein kT awr V M J /\ tot y (mean y idK M) (b * V * (b * V)) = G * J).
    { intros M V HM HV. apply (weight_phys Ein kT awr HE Hk Ha idK idPhi (fun t => t) b M (id_sub y Y) id_B (id_c y) ltac:(reflexivity) Bp HM V HV). }
    exists (a / G). split; [apply Rdiv_lt_0_compat; assumption|]. split; [|split].
    - intros eps He. apply is_lim_spec in La. assert (Pe : 0 < eps * G) by nra. destruct (La (mkposreal _ Pe)) as (S0 & HS). cbn [pos] in HS. exists (Rmax 1 (Rmax S0 0 / (b * b) + 1)). intros V J HV HJ. pose proof (Rmax_l 1 (Rmax S0 0 / (b * b) + 1)). pose proof (Rmax_r 1 (Rmax S0 0 / (b * b) + 1)).
      destruct (W 1 V ltac:(lra) ltac:(lra)) as (J' & HJ' & E). rewrite (weight_unique Ein kT awr (fun t => t) 1 V J J' ltac:(lra) HJ HJ'). assert (BB : 0 < b * b) by nra. assert (S0 < b * V * (b * V)). { assert (Rmax S0 0 / (b * b) < V) as Q by lra. apply Rlt_div_l in Q; [|exact BB]. pose proof (Rmax_l S0 0). assert (V * 1 <= V * V) by (apply Rmult_le_compat_l; lra). assert (V * (b * b) <= V * V * (b * b)) by (apply Rmult_le_compat_r; lra). lra. }
      specialize (HS _ H1). rewrite E in HS. replace (J' - a / G) with ((G * J' - a) / G) by (field; lra). unfold Rdiv. rewrite Rabs_mult, (Rabs_pos_eq (/ G)) by (left; apply Rinv_0_lt_compat; lra). apply Rlt_div_l; [lra|]. exact HS.
    - apply (law_then (svt_all y) _ build (fun _ => True) _ 1 St As (fun ds w r O => sample_pair ds w r O)); [tauto|exact L1].
    - intros V m A HV Hm HA. destruct (W m V Hm HV) as (J & HJ & E). exists J. split; [exact HJ|]. assert (BV : 0 < b * V * (b * V)) by (assert (0 < b * V) by nra; nra). specialize (Lh (b * V * (b * V)) m BV Hm). replace (J / (a / G)) with (tot y (mean y idK m) (b * V * (b * V)) / a) by (rewrite E; field; lra).
      apply (law_last (svt_all y) _ build (hits (b * V * (b * V)) m) _ _ (A / (2 * PI)) St As); [split; [apply Rle_div_r; lra|apply Rle_div_l; lra]|intros ds w r O; apply sample_pair; exact O| |exact Lh].
      intros [x2 mu] x ds r O H. destruct (pair_run _ _ _ _ O H) as [X2 Hmu]. destruct (St _ _ _ O H) as (l & El & _). rewrite El in O. apply open01_app in O as [_ O]. inversion O as [|? ? Hx _]; subst. unfold build, hits. cbn [fst snd].
      assert (Hs : 0 < x2 * kT / awr) by (apply Rdiv_lt_0_compat; nra). rewrite region_iff; [|lra|apply sqrt_lt_R0; exact Hs|exact Hmu|split; nra|exact HA].
      assert (E1 : target_speed kT awr x2 <= V <-> x2 <= b * V * (b * V)). { replace (b * V * (b * V)) with (awr / kT * (V * V)) by (rewrite <- Bs; ring). unfold target_speed. split; intros Q.
        - assert (Q2 : sqrt (x2 * kT / awr) * sqrt (x2 * kT / awr) <= V * V) by (apply Rmult_le_compat; try exact Q; apply sqrt_pos). rewrite sqrt_sqrt in Q2 by lra. apply (Rle_div_l (x2 * kT) (V * V) awr) in Q2; [|lra]. replace (awr / kT * (V * V)) with (V * V * awr / kT) by (field; lra). apply (Rle_div_r x2 (V * V * awr) kT); [lra|]. lra.
        - rewrite <- (sqrt_square V) by lra. apply sqrt_le_1_alt. apply Rle_div_l; [lra|]. replace (awr / kT * (V * V)) with (V * V * awr / kT) in Q by (field; lra). apply Rle_div_r in Q; lra. }
      assert (E2 : 2 * PI * x <= A <-> x <= A / (2 * PI)) by (split; intros Q; [apply Rle_div_r; lra|apply Rle_div_r in Q; lra]). rewrite E1, E2. tauto.
  Qed.
  Lemma svt_weight_pos V m : 0 < V -> -1 < m <= 1 -> exists J, 0 < J /\ forall J', reaction_weight (fun t => t) Ein kT awr V m J' <-> J' = J.
  Proof.
    intros HV Hm. pose proof (y_pos Ein kT awr HE Hk Ha) as Y. fold y in Y. pose proof (b_pos kT awr Hk Ha) as Bp. set (b := sqrt (awr / kT)) in *.
    set (G := gamma Ein kT awr b). assert (Gp : 0 < G) by (apply gamma_pos; assumption). assert (HM : -1 <= m <= 1) by lra.
    destruct (weight_phys Ein kT awr HE Hk Ha idK idPhi (fun t => t) b m (id_sub y Y) id_B (id_c y) ltac:(reflexivity) Bp HM V HV) as (J & HJ & E). exists J. split.
    - assert (BV : 0 < b * V) by nra. assert (T : 0 < tot y (mean y idK m) (b * V * (b * V))).
      { apply RInt_gt_0; [nra| |].
        - intros w Hw. apply Rmult_lt_0_compat; [|apply mixd_pos; [exact Y|lra]]. pose proof (acc_mean y Y idK idPhi m (id_sub y Y) HM w) as I. rewrite <- (@is_RInt_unique R_CompleteNormedModule _ _ _ _ I). apply RInt_gt_0; [lra| |].
          + intros z Hz. unfold acc, idK. assert (X : 0 < sqrt w) by (apply sqrt_lt_R0; lra). apply Rdiv_lt_0_compat; [|lra]. pose proof (rx_dec_lt y Y (sqrt w) (2 * z - 1) 1 X ltac:(lra) ltac:(lra) ltac:(lra)). pose proof (rx_pos y (sqrt w) 1). lra.
          + intros z Hz. apply (continuous_ext (fun z => rx y (sqrt w) (2 * z - 1) * / (sqrt w + y))); [reflexivity|]. apply (@continuous_mult R_UniformSpace R_AbsRing); [|apply continuous_const]. apply (c_comp (rx y (sqrt w)) (fun z => 2 * z - 1)); [apply edc; auto_derive; exact Logic.I|apply rx_cont_mu].
        - intros w Hw. apply (@continuous_mult R_UniformSpace R_AbsRing); [|apply mixd_c]. apply continuity_pt_filterlim, (mean_c y Y m HM). lra. }
      match type of E with _ = ?g * J => change g with G in E end. change (tot y (mean y idK m) (b * V * (b * V)) = G * J) in E. rewrite E in T. apply Rmult_lt_reg_l with G; [exact Gp|]. lra.
    - intros J'. split; [intros H; apply (weight_unique Ein kT awr (fun t => t) m V J' J HV H HJ)|intros ->; exact HJ].
  Qed.
End Final.
