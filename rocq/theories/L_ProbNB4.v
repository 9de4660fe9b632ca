(** * N-body phase space: the density is the density of the samples *)
From Coq Require Import Reals Lra Lia List Arith ZArith ZifyBool ZifyNat. From Coquelicot Require Import Coquelicot.
From Verif Require Import Base NumR M_Grid M_Spectra L_Legendre L_Interp2 L_Spectra L_Spectra2 L_Spectra3 S_Prob S_Mix L_Prob L_ProbEv L_Prob2 L_Gauss L_ProbMw L_ProbLaw L_ProbLoop L_ProbSvt L_ProbSvt2 L_ProbSvt4 L_ProbComp L_ProbComp3 L_Replay L_ProbNB L_ProbNB2 L_ProbNB3. Import ListNotations.
Local Open Scope R_scope.
Local Notation iR := (@is_RInt R_NormedModule).

(** ** the three distributions, from above *)
Lemma m3_ge s : 0 <= s -> prob 3 (fun l => s <= m3 l) (1 - MX s).
Proof.
  intros Hs. apply (ge_prob 2 m3 s _ (m3_prob s Hs)). intros l Hl. destruct (ud2 l Hl) as (a & b & -> & A & B). set (c := cos (PI / 2 * a)). exists (exp ((- ln b - s) / (c * c))). intros x Hx E. cbn in E. fold c in E.
  assert (Pc : 0 < c) by (pose proof PI_RGT_0; apply cos_gt_0; nra). rewrite <- (exp_ln x) at 1 by lra. f_equal. apply (Rmult_eq_reg_r (c * c)); [|nra]. replace ((- ln b - s) / (c * c) * (c * c)) with (- ln b - s) by (field; lra). lra.
Qed.
Lemma g3_ge s : 0 <= s -> prob 3 (fun l => s <= g3 l) (1 - G3 s).
Proof.
  intros Hs. apply (ge_prob 2 g3 s _ (g3_prob s Hs)). intros l Hl. destruct (ud2 l Hl) as (a & b & -> & A & B). exists (exp (g2 [a; b] - s)). intros x Hx E. change ([a; b] ++ [x]) with [a; b; x] in E. rewrite (g3_split a b x A B Hx) in E.
  rewrite <- (exp_ln x) at 1 by lra. f_equal. lra.
Qed.
Lemma y5_ge s : 0 <= s -> prob 6 (fun l => s <= y5 l) (1 - F9 s).
Proof.
  intros Hs. apply (ge_prob 5 y5 s _ (y5_prob s Hs)). intros l [L F]. destruct l as [|a [|b [|c [|d [|e [|]]]]]]; try discriminate. apply Forall_forall with (x := e) in F; [|cbn; tauto]. pose proof (ln_neg01 e F) as Le.
  exists (acos (sqrt ((g3 [a; b; c] - ln d - s) / ln e)) * 2 / PI). intros x Hx E. cbn [app y5 mx] in E. set (t := PI * x / 2) in *. pose proof PI_RGT_0 as PP. assert (Tt : 0 < t < PI / 2) by (unfold t; split; [apply Rdiv_lt_0_compat; nra|nra]). assert (Pc : 0 < cos t) by (apply cos_gt_0; lra).
  assert (K : (g3 [a; b; c] - ln d - s) / ln e = cos t * cos t). { apply (Rmult_eq_reg_r (ln e)); [|lra]. replace ((g3 [a; b; c] - ln d - s) / ln e * ln e) with (g3 [a; b; c] - ln d - s) by (field; lra). lra. }
  rewrite K, sqrt_square by lra. rewrite acos_cos by lra. unfold t. field. lra.
Qed.
(** ** powers *)
Lemma sqrt_m x y : 0 <= x -> 0 <= y -> sqrt (x * y) = sqrt x * sqrt y. Proof. intros. apply sqrt_mult; assumption. Qed.
Definition b4 (s : R) : R := s * s.
Definition b5 (s : R) : R := s * s * s * sqrt s.
Lemma b4_c x : continuous b4 x. Proof. unfold b4. apply edc. auto_derive. exact Logic.I. Qed.
Lemma b5_c x : continuous b5 x. Proof. unfold b5. apply (c_mult (fun s => s * s * s)); [apply edc; auto_derive; exact Logic.I|apply continuous_sqrt]. Qed.
Lemma b4_m x y : 0 <= x -> 0 <= y -> b4 (x * y) = b4 x * b4 y. Proof. intros. unfold b4. ring. Qed.
Lemma b5_m x y : 0 <= x -> 0 <= y -> b5 (x * y) = b5 x * b5 y. Proof. intros. unfold b5. rewrite sqrt_mult by assumption. ring. Qed.
Lemma b4_p x : 0 < x -> 0 < b4 x. Proof. unfold b4. nra. Qed.
Lemma b5_p x : 0 < x -> 0 < b5 x. Proof. intros H. unfold b5. pose proof (sqrt_lt_R0 x H). apply Rmult_lt_0_compat; [apply Rmult_lt_0_compat; nra|assumption]. Qed.
(** ** the constants *)
Lemma lim_on (f g : R -> R) (l : R) : (forall x, 0 <= x -> f x = g x) -> is_lim f p_infty l -> is_lim g p_infty l.
Proof. intros H L. eapply is_lim_ext_loc; [|exact L]. exists 0. intros x Hx. apply H. lra. Qed.
Lemma gam3 : is_lim (GV sqrt) p_infty 2.
Proof.
  apply (lim_on (fun V => 2 - (1 * (V ^ 2 * exp (- V)) + 2 * (V ^ 1 * exp (- V)) + 2 * (V ^ 0 * exp (- V))))).
  - intros V HV. symmetry. apply rint_u. eapply iR_eq; [|apply (iR_ext (fun v => v ^ 2 * exp (- v))); [exact HV| |apply (@is_RInt_derive R_CompleteNormedModule (fun v => - (v ^ 2 + 2 * v + 2) * exp (- v)))]].
    + unfold minus, plus, opp. cbn. rewrite Ropp_0, exp_0. ring.
    + intros x Hx. unfold q. rewrite sqrt_sqrt by lra. match goal with |- ?a = ?b => change (@eq R a b) end. ring.
    + intros x _. auto_derive; [exact Logic.I|]. match goal with |- ?a = ?b => change (@eq R a b) end. ring.
    + intros x _. apply edc. auto_derive. exact Logic.I.
  - replace (Finite 2) with (Finite (2 - (0 + 0 + 0))) by (f_equal; ring). apply is_lim_minus'; [apply is_lim_const|]. apply is_lim_plus'; [apply is_lim_plus'|]; apply pexp0; lra.
Qed.
Lemma gam4 : is_lim (GV b4) p_infty (105 * sqrt PI / 16).
Proof.
  pose proof sqrtpi as SP. apply (lim_on (fun V => 105 * sqrt PI / 16 * F9 V)).
  - intros V HV. symmetry. apply rint_u. pose proof (@is_RInt_scal R_NormedModule _ 0 V (105 * sqrt PI / 16) _ (f9_int V HV)) as S. eapply (@is_RInt_ext R_NormedModule); [|exact S].
    intros x _. unfold scal. cbn. unfold mult. cbn. unfold f9, q, b4. match goal with |- ?a = ?b => change (@eq R a b) end. field. lra.
  - replace (Finite (105 * sqrt PI / 16)) with (Rbar_mult (105 * sqrt PI / 16) 1) by (cbn; f_equal; ring). apply is_lim_scal_l. exact F9_lim.
Qed.
Lemma gam5 : is_lim (GV b5) p_infty 120.
Proof.
  apply (lim_on (fun V => 120 - (1 * (V ^ 5 * exp (- V)) + 5 * (V ^ 4 * exp (- V)) + 20 * (V ^ 3 * exp (- V)) + 60 * (V ^ 2 * exp (- V)) + 120 * (V ^ 1 * exp (- V)) + 120 * (V ^ 0 * exp (- V))))).
  - intros V HV. symmetry. apply rint_u. eapply iR_eq; [|apply (iR_ext (fun v => v ^ 5 * exp (- v))); [exact HV| |apply (@is_RInt_derive R_CompleteNormedModule (fun v => - (v ^ 5 + 5 * v ^ 4 + 20 * v ^ 3 + 60 * v ^ 2 + 120 * v + 120) * exp (- v)))]].
    + unfold minus, plus, opp. cbn. rewrite Ropp_0, exp_0. ring.
    + intros x Hx. unfold q, b5. assert (S : sqrt x * sqrt x = x) by (apply sqrt_sqrt; lra). match goal with |- ?a = ?b => change (@eq R a b) end. transitivity (x * (x * x * x) * (sqrt x * sqrt x) * exp (- x)); [rewrite S; ring|ring].
    + intros x _. auto_derive; [exact Logic.I|]. match goal with |- ?a = ?b => change (@eq R a b) end. cbn. ring.
    + intros x _. apply edc. auto_derive. exact Logic.I.
  - replace (Finite 120) with (Finite (120 - (0 + 0 + 0 + 0 + 0 + 0))) by (f_equal; ring). apply is_lim_minus'; [apply is_lim_const|]. repeat (apply is_lim_plus'; [|apply pexp0; lra]). apply pexp0; lra.
Qed.
(** ** the share of the first energy *)
Lemma fy3 s : 0 <= s -> FY sqrt (2 / sqrt PI) s = MX s. Proof. intros Hs. apply rint_u. exact (mx_dens_int s Hs). Qed.
Lemma fy4 s : FY b4 (1 / 2) s = G3 s. Proof. apply rint_u. exact (g3_dens_int s). Qed.
Lemma fy5 s : 0 <= s -> FY b5 (16 / (105 * sqrt PI)) s = F9 s. Proof. intros Hs. apply rint_u. exact (f9_int s Hs). Qed.
Lemma share3 r : 0 <= r -> prob 6 (fun l => m3 (firstn 3 l) * r <= m3 (skipn 3 l)) (1 - 2 * RInt (kk sqrt (2 / sqrt PI)) 0 r).
Proof.
  pose proof sqrtpi as SP. apply (ratio_r 3 m3 sqrt (2 / sqrt PI) 2).
  - intros s Hs. rewrite fy3 by exact Hs. apply m3_ge; exact Hs.
  - apply (lim_on MX); [intros x Hx; symmetry; apply fy3; exact Hx|exact mx_lim].
  - apply continuous_sqrt.
  - exact sqrt_m.
  - intros x. apply sqrt_lt_R0.
  - apply Rdiv_lt_0_compat; lra.
  - exact gam3.
Qed.
Lemma share4 r : 0 <= r -> prob 6 (fun l => m3 (firstn 3 l) * r <= g3 (skipn 3 l)) (1 - 105 * sqrt PI / 16 * RInt (kk b4 (1 / 2)) 0 r).
Proof.
  apply (ratio_r 3 g3 b4 (1 / 2) (105 * sqrt PI / 16)).
  - intros s Hs. rewrite fy4. apply g3_ge; exact Hs.
  - apply (lim_on G3); [intros x Hx; symmetry; apply fy4|exact g3_lim].
  - exact b4_c.
  - exact b4_m.
  - exact b4_p.
  - lra.
  - exact gam4.
Qed.
Lemma share5 r : 0 <= r -> prob 9 (fun l => m3 (firstn 3 l) * r <= y5 (skipn 3 l)) (1 - 120 * RInt (kk b5 (16 / (105 * sqrt PI))) 0 r).
Proof.
  pose proof sqrtpi as SP. apply (ratio_r 6 y5 b5 (16 / (105 * sqrt PI)) 120).
  - intros s Hs. rewrite fy5 by exact Hs. apply y5_ge; exact Hs.
  - apply (lim_on F9); [intros x Hx; symmetry; apply fy5; exact Hx|exact F9_lim].
  - exact b5_c.
  - exact b5_m.
  - exact b5_p.
  - apply Rdiv_lt_0_compat; lra.
  - exact gam5.
Qed.
(** ** the density *)
Section Dens.
  Variables (d : nbody R) (E : R). Let M := nb_Emax d E. Hypothesis HM : 0 < M.
  Lemma scaled_int (B : R -> R) e I : 0 < e <= M -> iR B (e / M) 1 I -> (forall x, 0 < x < M -> 2 * nb_pdf d E x = B (x / M) / M) -> iR (fun x => 2 * nb_pdf d E x) e M I.
  Proof.
    intros He HI HB. assert (J : iR (fun y => / M * B (/ M * y + 0)) e M I).
    { apply (@is_RInt_comp_lin R_NormedModule B (/ M) 0 e M). rewrite !Rplus_0_r, Rinv_l by lra. rewrite Rmult_comm. exact HI. }
    apply (iR_ext _ _ e M _ ltac:(lra)) with (2 := J). intros x Hx. cbv beta. rewrite (HB x) by lra. rewrite Rplus_0_r. rewrite (Rmult_comm (/ M) x). match goal with |- ?a = ?b => change (@eq R a b) end. unfold Rdiv. ring.
  Qed.
  Lemma sum_int e I : (nb_n d = 3 \/ nb_n d = 4 \/ nb_n d = 5)%Z -> 0 < e <= M -> iR (fun x => 2 * nb_pdf d E x) e M I -> iR (fun x => 2 * nb_pdf d E x) 0 e (1 - I).
  Proof.
    intros Hn He HI. pose proof (nb_norm d E Hn HM) as N. pose proof (@is_RInt_scal R_NormedModule _ 0 M 2 _ N) as S. assert (S' : iR (fun x => 2 * nb_pdf d E x) 0 M 1) by (eapply iR_eq; [|exact S]; unfold scal; cbn; unfold mult; cbn; field).
    assert (X : ex_RInt (fun x => 2 * nb_pdf d E x) 0 e) by (apply (@ex_RInt_Chasles_1 R_CompleteNormedModule _ _ _ M); [lra|eexists; exact S']). destruct X as (v & Iv). pose proof (iR_chasles _ 0 e M v I Iv HI) as T.
    pose proof (rint_u _ _ _ _ T) as U1. pose proof (rint_u _ _ _ _ S') as U2. eapply iR_eq; [|exact Iv]. rewrite U1 in U2. lra.
  Qed.
  (** the event *)
  Lemma share_event x y e : 0 < x -> 0 < y -> 0 < e <= M -> (x / (x + y) * M <= e <-> x * ((1 - e / M) / (e / M)) <= y).
  Proof.
    intros Hx Hy He. replace ((1 - e / M) / (e / M)) with ((M - e) / e) by (field; lra). split; intros H.
    - assert (K : x * M <= e * (x + y)). { apply (Rmult_le_compat_r (x + y)) in H; [|lra]. replace (x / (x + y) * M * (x + y)) with (x * M) in H by (field; lra). exact H. }
      apply (Rmult_le_reg_r e); [lra|]. replace (x * ((M - e) / e) * e) with (x * (M - e)) by (field; lra). lra.
    - apply (Rmult_le_compat_r e) in H; [|lra]. replace (x * ((M - e) / e) * e) with (x * (M - e)) in H by (field; lra). apply (Rmult_le_reg_r (x + y)); [lra|]. replace (x / (x + y) * M * (x + y)) with (x * M) by (field; lra). lra.
  Qed.
  Section Use.
    Variables (k : nat) (Y : list R -> R) (B : R -> R) (J : R -> R).
    Hypothesis Hn : (nb_n d = 3 \/ nb_n d = 4 \/ nb_n d = 5)%Z.
    Hypothesis Yp : forall l, unit_draws k l -> 0 < Y l.
    Hypothesis U : uses (nb_energy d E) (3 + k) (fun l => m3 (firstn 3 l) / (m3 (firstn 3 l) + Y (skipn 3 l)) * M).
    Hypothesis SH : forall r, 0 <= r -> prob (3 + k) (fun l => m3 (firstn 3 l) * r <= Y (skipn 3 l)) (1 - J r).
    Hypothesis SI : forall t, 0 < t <= 1 -> iR B t 1 (J ((1 - t) / t)).
    Hypothesis SB : forall x, 0 < x < M -> 2 * nb_pdf d E x = B (x / M) / M.
    Lemma both_pos l : unit_draws (3 + k) l -> 0 < m3 (firstn 3 l) /\ 0 < Y (skipn 3 l).
    Proof. intros H. apply ud_split in H as (a & b & -> & A & B'). destruct (ud3 a A) as (x & y & z & -> & _). cbn [firstn skipn app]. split; [apply m3_pos; exact A|apply Yp; exact B']. Qed.
    Lemma nb_dens_use : has_density (nb_energy d E) 0 M (fun x => 2 * nb_pdf d E x).
    Proof.
      split.
      - apply (law_uses _ _ _ _ _ U). apply prob_always. intros l Hl. destruct (both_pos l Hl) as [P1 P2]. set (x := m3 (firstn 3 l)) in *. set (y := Y (skipn 3 l)) in *. assert (0 < x / (x + y)) by (apply Rdiv_lt_0_compat; lra). assert (x / (x + y) <= 1) by (apply Rle_div_l; lra). split; nra.
      - intros e He. destruct (Req_dec e 0) as [->|N].
        + exists 0. split; [|exact (@is_RInt_point R_NormedModule _ 0)]. apply (law_uses _ _ _ _ _ U). apply prob_never. intros l Hl H. destruct (both_pos l Hl) as [P1 P2]. set (x := m3 (firstn 3 l)) in *. set (y := Y (skipn 3 l)) in *. assert (0 < x / (x + y)) by (apply Rdiv_lt_0_compat; lra). nra.
        + assert (He' : 0 < e <= M) by lra. assert (T : 0 < e / M <= 1) by (split; [apply Rdiv_lt_0_compat; lra|apply Rle_div_l; lra]). exists (1 - J ((1 - e / M) / (e / M))). split.
          * apply (law_uses _ _ _ _ _ U). eapply prob_ext; [|apply (SH ((1 - e / M) / (e / M))); apply Rle_mult_inv_pos; lra]. intros l Hl. destruct (both_pos l Hl) as [P1 P2]. symmetry. apply share_event; assumption.
          * apply sum_int; [exact Hn|exact He'|]. apply (scaled_int B); [exact He'|apply SI; exact T|exact SB].
    Qed.
  End Use.
End Dens.
Lemma ud6' l : unit_draws 6 l -> exists a b c d e f, l = [a; b; c; d; e; f] /\ 0 < f < 1. Proof. intros H. destruct (ud6 l H) as (a & b & c & d & e & f & -> & Q). exists a, b, c, d, e, f. tauto. Qed.
Lemma m3_eq a b c : - (ln b + ln c * cos (PI * a / 2) * cos (PI * a / 2)) = m3 [a; b; c].
Proof. cbn. replace (PI * a / 2) with (PI / 2 * a) by field. ring. Qed.
Lemma nb_dens3 d E : nb_n d = 3%Z -> 0 < nb_Emax d E -> has_density (nb_energy d E) 0 (nb_Emax d E) (fun x => 2 * nb_pdf d E x).
Proof.
  intros Hn HM. pose proof sqrtpi as SP. pose proof sqrtpi2 as SP2. pose proof PI_RGT_0 as PP. assert (Cp : 0 < 2 / sqrt PI) by (apply Rdiv_lt_0_compat; lra).
  apply (nb_dens_use d E HM 3 m3 (BB sqrt (2 / sqrt PI) 2) (fun r => 2 * RInt (kk sqrt (2 / sqrt PI)) 0 r)); [tauto|exact m3_pos| |exact share3| |].
  - split; [|unfold nb_energy, nb_y; rewrite Hn; short]. intros l r Hl _. destruct (ud6' l Hl) as (a & b & c & a' & b' & c' & -> & _). unfold nb_energy, nb_y. rewrite Hn. cbn -[m3]. rewrite (m3_eq a b c), (m3_eq a' b' c'). reflexivity.
  - intros t Ht. apply (share_int sqrt (2 / sqrt PI) 2); [apply continuous_sqrt|exact sqrt_m|intros x; apply sqrt_lt_R0|exact Ht].
  - intros x Hx. unfold nb_pdf, BB, DD. rewrite Hn. cbn [Z.eqb Pos.eqb]. rnum. set (M := nb_Emax d E) in *. rewrite Rpow_pos, half_pow by lra. assert (Sm : 0 < sqrt M) by (apply sqrt_lt_R0; lra). replace (1 - x / M) with ((M - x) / M) by (field; lra).
    rewrite !sqrt_div_alt by lra. set (S1 := sqrt (M - x)). assert (EM : M = sqrt M * sqrt M) by (symmetry; apply sqrt_sqrt; lra). set (rM := sqrt M) in *. set (S2 := sqrt x). set (sp := sqrt PI) in *. clearbody S1 rM S2 sp. rewrite <- SP2. rewrite EM. match goal with |- ?a = ?b => change (@eq R a b) end. cbn [pow]. field. lra.
Qed.
Lemma nb_dens4 d E : nb_n d = 4%Z -> 0 < nb_Emax d E -> has_density (nb_energy d E) 0 (nb_Emax d E) (fun x => 2 * nb_pdf d E x).
Proof.
  intros Hn HM. pose proof sqrtpi as SP. pose proof sqrtpi2 as SP2. pose proof PI_RGT_0 as PP. assert (Cp : 0 < 1 / 2) by lra.
  apply (nb_dens_use d E HM 3 g3 (BB b4 (1 / 2) (105 * sqrt PI / 16)) (fun r => 105 * sqrt PI / 16 * RInt (kk b4 (1 / 2)) 0 r)); [tauto|exact g3_pos| |exact share4| |].
  - split; [|unfold nb_energy, nb_y; rewrite Hn; short]. intros l r Hl _. destruct (ud6' l Hl) as (a & b & c & a' & b' & c' & -> & _). unfold nb_energy, nb_y. rewrite Hn. cbn -[m3]. rewrite (m3_eq a b c). reflexivity.
  - intros t Ht. apply (share_int b4 (1 / 2) (105 * sqrt PI / 16)); [exact b4_c|exact b4_m|exact b4_p|exact Ht].
  - intros x Hx. unfold nb_pdf, BB, DD, b4. rewrite Hn. cbn [Z.eqb Pos.eqb]. rnum. set (M := nb_Emax d E) in *. rewrite (Rpow_pos M), seven_half by lra. replace (3 * 4 / 2 - 4) with (IZR 2) by (cbn; lra). rewrite Rpow_int. cbn [powerRZ]. change (Pos.to_nat 2) with 2%nat.
    assert (Sm : 0 < sqrt M) by (apply sqrt_lt_R0; lra). rewrite !sqrt_div_alt by lra. match goal with |- ?a = ?b => change (@eq R a b) end. cbn [pow]. field. lra.
Qed.
Lemma nb_dens5 d E : nb_n d = 5%Z -> 0 < nb_Emax d E -> has_density (nb_energy d E) 0 (nb_Emax d E) (fun x => 2 * nb_pdf d E x).
Proof.
  intros Hn HM. pose proof sqrtpi as SP. pose proof sqrtpi2 as SP2. pose proof PI_RGT_0 as PP. assert (Cp : 0 < 16 / (105 * sqrt PI)) by (apply Rdiv_lt_0_compat; lra).
  apply (nb_dens_use d E HM 6 y5 (BB b5 (16 / (105 * sqrt PI)) 120) (fun r => 120 * RInt (kk b5 (16 / (105 * sqrt PI))) 0 r)); [tauto|exact y5_pos| |exact share5| |].
  - split; [|unfold nb_energy, nb_y; rewrite Hn; short]. intros l r Hl _. change (3 + 6)%nat with 9%nat in Hl. destruct Hl as [Ll Fl]. destruct l as [|a [|b [|c l]]]; try discriminate. assert (H6 : unit_draws 6 l) by (split; [cbn in Ll; lia|inversion_clear Fl as [|? ? _ F1]; inversion_clear F1 as [|? ? _ F2]; inversion_clear F2; assumption]).
    destruct (ud6 l H6) as (a1 & b1 & c1 & d1 & e1 & f1 & -> & A1 & B1 & C1 & D1 & E1 & F1). unfold nb_energy, nb_y. rewrite Hn. cbn -[m3 y5]. rewrite (m3_eq a b c). cbn [y5 g3 mx].
    assert (Y5 : - ln (a1 * b1 * c1 * d1) - ln e1 * Rpow (cos (1 / 2 * PI * f1)) 2 = y5 [a1; b1; c1; d1; e1; f1]).
    { cbn [y5 g3 mx]. replace (1 / 2 * PI * f1) with (PI * f1 / 2) by field. assert (0 < cos (PI * f1 / 2)) by (apply cos_gt_0; nra). change 2 with (IZR 2) at 2. rewrite Rpow_int. cbn [powerRZ]. change (Pos.to_nat 2) with 2%nat. rewrite (ln_mult (a1 * b1 * c1) d1) by (try lra; assert (0 < a1 * b1) by nra; nra). ring. }
    rewrite Y5. reflexivity.
  - intros t Ht. apply (share_int b5 (16 / (105 * sqrt PI)) 120); [exact b5_c|exact b5_m|exact b5_p|exact Ht].
  - intros x Hx. unfold nb_pdf, BB, DD, b5. rewrite Hn. cbn [Z.eqb Pos.eqb]. rnum. set (M := nb_Emax d E) in *. rewrite (Rpow_pos (M - x)) by lra. replace (3 * 5 / 2 - 4) with (7 / 2) by lra. rewrite seven_half by lra. change (Rpow M 5) with (Rpow M (IZR 5)). rewrite Rpow_int. cbn [powerRZ]. change (Pos.to_nat 5) with 5%nat.
    assert (Sm : 0 < sqrt M) by (apply sqrt_lt_R0; lra). replace (1 - x / M) with ((M - x) / M) by (field; lra). rewrite !sqrt_div_alt by lra. set (S1 := sqrt (M - x)). assert (EM : M = sqrt M * sqrt M) by (symmetry; apply sqrt_sqrt; lra). set (rM := sqrt M) in *. set (S2 := sqrt x). set (sp := sqrt PI) in *. clearbody S1 rM S2 sp. rewrite <- SP2. rewrite EM. match goal with |- ?a = ?b => change (@eq R a b) end. cbn [pow]. field. lra.
Qed.
Lemma nb_dens d E : (nb_n d = 3 \/ nb_n d = 4 \/ nb_n d = 5)%Z -> 0 < nb_Emax d E -> has_density (nb_energy d E) 0 (nb_Emax d E) (fun x => 2 * nb_pdf d E x).
Proof. intros [H|[H|H]] HM; [apply nb_dens3|apply nb_dens4|apply nb_dens5]; assumption. Qed.
Lemma nb_joint d E : (nb_n d = 3 \/ nb_n d = 4 \/ nb_n d = 5)%Z -> 0 < nb_Emax d E -> has_joint_density (nb_sample d E) 0 (nb_Emax d E) (fun _ x => nb_pdf d E x).
Proof.
  intros Hn HM. destruct (nb_dens d E Hn HM) as [T H]. split.
  - eapply law_same; [intros ds _; symmetry; apply nb_both|]. eapply law_val; [|apply (law_both (nb_energy d E) draw (fun e u => (2 * u - 1, e)) (fun v => 0 <= v <= nb_Emax d E) (fun u => 0 <= u <= 1)); [apply rp_nb_energy|exact rp_draw1| |exact T|exact (proj1 draw_density)]]; [ring|].
    intros e u. cbn. split; intros [H1 H2]; (split; [|]); try assumption; lra.
  - intros m x Hm Hx. destruct (H x Hx) as (qv & Lq & Iq). assert (I1 : iR (nb_pdf d E) 0 x (qv / 2)).
    { pose proof (@is_RInt_scal R_NormedModule _ 0 x (/ 2) _ Iq) as S. eapply iR_eq; [|eapply (@is_RInt_ext R_NormedModule); [|exact S]].
      - unfold scal. cbn. unfold mult. cbn. field.
      - intros y _. unfold scal. cbn. unfold mult. cbn. match goal with |- ?a = ?b => change (@eq R a b) end. field. }
    exists (fun _ => qv / 2), ((m - -1) * (qv / 2)). split; [intros; exact I1|]. split; [apply iR_const_on; [lra|reflexivity]|].
    eapply law_val; [|apply (nb_cosine d E (fun v => v <= x) qv m Hm Lq)]. field.
Qed.
