(** * The law of the pair (reduced target speed squared, cosine) that the free-gas rejection loop returns *)
From Coq Require Import Reals Lra Lia List Arith ZifyBool ZifyNat. From Coquelicot Require Import Coquelicot.
From Verif Require Import Base NumR M_Kin L_Search L_Legendre L_Interp2 L_Spectra L_Spectra2 S_Prob L_Prob L_ProbEv L_Prob2 L_Gauss L_ProbMw L_ProbLaw L_ProbLoop L_ProbSvt L_ProbSvt2 L_ProbSvt3 L_ProbSvt4. Import ListNotations.
Local Open Scope R_scope.
Local Notation iR := (@is_RInt R_NormedModule).

Section Svt.
  Variable y : R. Hypothesis Hy : 0 < y.
  Definition idK (t : R) : R := t.
  Definition idPhi (t : R) : R := t * t * t / 3.
  Lemma id_sub : sub y idK idPhi.
  Proof.
    apply sub_cont; [exact Hy| | |].
    - intros t _. unfold idK. apply continuous_id.
    - intros t. apply edc. unfold idPhi. auto_derive. exact Logic.I.
    - intros t _. unfold idPhi, idK. auto_derive; [exact Logic.I|]. field.
  Qed.
  Lemma id_B t : 0 <= t -> 0 <= idK t <= t. Proof. unfold idK. lra. Qed.
  Lemma id_c : continuous idK y. Proof. unfold idK. apply continuous_id. Qed.
  (** far away every trial is accepted *)
  Lemma id_far M eps : -1 <= M <= 1 -> 0 < eps -> forall w, (2 * y / eps) * (2 * y / eps) < w -> Rabs (mean y idK M w - (M + 1) / 2) <= eps.
  Proof.
    intros HM He w Hw. assert (P : 0 < 2 * y / eps) by (apply Rdiv_lt_0_compat; lra). assert (X : 2 * y / eps < sqrt w). { rewrite <- (sqrt_square (2 * y / eps)) by lra. apply sqrt_lt_1_alt. nra. }
    pose proof (acc_mean y Hy idK idPhi M id_sub HM w) as I1. pose proof (iR_const_on (fun _ => 1) 0 ((M + 1) / 2) 1 ltac:(lra) ltac:(reflexivity)) as I0. pose proof (@is_RInt_minus R_NormedModule _ _ _ _ _ _ I1 I0) as I2. apply (@is_RInt_unique R_CompleteNormedModule) in I2 as U. change (minus (mean y idK M w) (((M + 1) / 2 - 0) * 1)) with (mean y idK M w - ((M + 1) / 2 - 0) * 1) in U. replace (mean y idK M w - (M + 1) / 2) with (mean y idK M w - ((M + 1) / 2 - 0) * 1) by ring. rewrite <- U.
    apply Rle_trans with (((M + 1) / 2 - 0) * eps); [|nra]. apply (abs_RInt_le_const (fun m => minus (acc y idK w m) 1)); [lra|eexists; exact I2|]. intros m Hm. change (Rabs (acc y idK w m - 1) <= eps). unfold acc, idK. set (x := sqrt w) in *.
    pose proof (rx_between y Hy x (2 * m - 1) ltac:(lra) ltac:(lra)) as [B1 B2]. apply Rabs_le_between in B1. apply Rlt_div_l in X; [|lra]. replace (rx y x (2 * m - 1) / (x + y) - 1) with (- ((x + y - rx y x (2 * m - 1)) / (x + y))) by (field; lra). rewrite Rabs_Ropp, Rabs_pos_eq by (apply Rle_div_r; lra). apply Rle_div_l; [lra|]. nra.
  Qed.

  (** ** one trial *)
  Definition svt_res (w m r : R) : option (R * R) := if Rlt_dec r (acc y idK w m) then Some (w, 2 * m - 1) else None.
  Definition svt_t1 : rand R (option (R * R)) := fun ds => match ds with a :: b :: m :: r :: q => Ok (svt_res (g2 [a; b]) m r, q) | _ => NoDraw end.
  Definition svt_t2 : rand R (option (R * R)) := fun ds => match ds with a :: b :: d :: m :: r :: q => Ok (svt_res (m3 [a; b; d]) m r, q) | _ => NoDraw end.
  Definition svt_turn : rand R (option (R * R)) := fun ds => match ds with [] => NoDraw | xi :: q => if Rlt_dec xi (cc y) then svt_t1 q else svt_t2 q end.
  Lemma svt_asks : asks svt_turn. Proof. intros v r H. discriminate. Qed.
  Lemma svt_steady : steady svt_turn.
  Proof.
    intros ds v r O H. destruct ds as [|xi q]; [discriminate|]. cbn [svt_turn] in H. destruct (Rlt_dec xi (cc y)) as [C|C].
    - destruct q as [|a [|b [|m [|z q]]]]; try discriminate. cbn [svt_t1] in H. injection H as <- <-. exists [xi; a; b; m; z]. split; [reflexivity|]. intros r' _. cbn [app svt_turn]. destruct (Rlt_dec xi (cc y)); [reflexivity|contradiction].
    - destruct q as [|a [|b [|d [|m [|z q]]]]]; try discriminate. cbn [svt_t2] in H. injection H as <- <-. exists [xi; a; b; d; m; z]. split; [reflexivity|]. intros r' _. cbn [app svt_turn]. destruct (Rlt_dec xi (cc y)); [contradiction|reflexivity].
  Qed.
  Definition phi1 (l : list R) : option (R * R) := match skipn 2 l with [m; r] => svt_res (g2 (firstn 2 l)) m r | _ => None end.
  Definition phi2 (l : list R) : option (R * R) := match skipn 3 l with [m; r] => svt_res (m3 (firstn 3 l)) m r | _ => None end.
  Lemma uses1 : uses svt_t1 4 phi1.
  Proof.
    split.
    - intros l r [L _] _. destruct l as [|a [|b [|m [|z [|]]]]]; try discriminate. reflexivity.
    - intros l L v r H. destruct l as [|a [|b [|m [|z q]]]]; try discriminate. cbn in L. lia.
  Qed.
  Lemma uses2 : uses svt_t2 5 phi2.
  Proof.
    split.
    - intros l r [L _] _. destruct l as [|a [|b [|d [|m [|z [|]]]]]]; try discriminate. reflexivity.
    - intros l L v r H. destruct l as [|a [|b [|d [|m [|z q]]]]]; try discriminate. cbn in L. lia.
  Qed.
  (** the event of the last two numbers *)
  Definition ev (M : R) (w : R) (l : list R) : Prop := match l with [m; r] => r < acc y idK w m /\ m <= (M + 1) / 2 | _ => False end.
  Lemma ev_dec M w l : {ev M w l} + {~ ev M w l}.
  Proof. destruct l as [|m [|r [|]]]; cbn; auto. destruct (Rlt_dec r (acc y idK w m)), (Rle_dec m ((M + 1) / 2)); tauto. Qed.
  Lemma ev_prob M w : -1 <= M <= 1 -> 0 < w -> prob 2 (ev M w) (mean y idK M w).
  Proof. intros HM Hw. apply (under_prob (acc y idK w) ((M + 1) / 2)); [lra|intros x Hx; apply (acc_bounds y Hy idK); [exact id_B|exact Hx]|apply (acc_mean y Hy idK idPhi M id_sub HM)]. Qed.
  Lemma mean_c M : -1 <= M <= 1 -> forall x, 0 <= x -> continuity_pt (mean y idK M) x.
  Proof. intros HM. apply (mean_cont y Hy idK idPhi M id_sub id_B id_c HM). Qed.
  Definition hits (S0 M : R) (v : R * R) : Prop := fst v <= S0 /\ snd v <= M.
  Lemma turn_hit S0 M : 0 < S0 -> -1 <= M <= 1 -> law svt_turn (fun o => exists v, o = Some v /\ hits S0 M v) (tot y (mean y idK M) S0).
  Proof.
    intros HS HM. rewrite (tot_mix y _ (mean_c M HM)) by lra. pose proof (cc_range y Hy). apply (law_choose _ svt_t1 svt_t2 _ (cc y)); [lra|exact svt_asks|intros; reflexivity| |].
    - apply (law_uses _ 4 phi1 _ _ uses1). eapply prob_ext; [|exact (below1 2 (mean y idK M) (ev M) (ev_dec M) (fun w Hw => ev_prob M w HM Hw) (mean_c M HM) S0 HS)].
      intros l [L _]. destruct l as [|a [|b [|m [|r [|]]]]]; try discriminate. cbn [firstn skipn ev phi1]. unfold hits. change (phi1 [a; b; m; r]) with (svt_res (g2 [a; b]) m r). unfold svt_res. destruct (Rlt_dec r (acc y idK (g2 [a; b]) m)) as [Q|Q]; split.
      + intros (A & _ & B). eexists. split; [reflexivity|]. cbn [fst snd]. lra.
      + intros (v & E & A & B). injection E as <-. cbn [fst snd] in A, B. repeat split; try assumption. lra.
      + intros (A & B & _). contradiction.
      + intros (v & E & _). discriminate.
    - apply (law_uses _ 5 phi2 _ _ uses2). eapply prob_ext; [|exact (below2 2 (mean y idK M) (ev M) (ev_dec M) (fun w Hw => ev_prob M w HM Hw) (mean_c M HM) S0 HS)].
      intros l [L _]. destruct l as [|a [|b [|d [|m [|r [|]]]]]]; try discriminate. cbn [firstn skipn ev phi2]. unfold hits. change (phi2 [a; b; d; m; r]) with (svt_res (m3 [a; b; d]) m r). unfold svt_res. destruct (Rlt_dec r (acc y idK (m3 [a; b; d]) m)) as [Q|Q]; split.
      + intros (A & _ & B). eexists. split; [reflexivity|]. cbn [fst snd]. lra.
      + intros (v & E & A & B). injection E as <-. cbn [fst snd] in A, B. repeat split; try assumption. lra.
      + intros (A & B & _). contradiction.
      + intros (v & E & _). discriminate.
  Qed.
  Lemma prob_not n X p : prob n X p -> prob n (fun l => ~ X l) (1 - p).
  Proof. intros H. eapply prob_ext; [|apply (prob_diff n (fun _ => True) X 1 p); [trivial|apply prob_always; trivial|exact H]]. intros l _. tauto. Qed.
  Lemma turn_miss : exists a : R, is_lim (tot y (mean y idK 1)) p_infty a /\ law svt_turn (fun o => o = None) (1 - a) /\ law svt_turn (fun o => exists v, o = Some v /\ True) a.
  Proof.
    pose proof (cc_range y Hy) as C. assert (H1 : -1 <= 1 <= 1) by lra.
    destruct (all1 2 (mean y idK 1) (ev 1) (ev_dec 1) (fun w Hw => ev_prob 1 w H1 Hw) (mean_c 1 H1) ((1 + 1) / 2) (fun e => (2 * y / e) * (2 * y / e)) (fun e He => id_far 1 e H1 He)) as (i1 & P1 & L1).
    destruct (all2 2 (mean y idK 1) (ev 1) (ev_dec 1) (fun w Hw => ev_prob 1 w H1 Hw) (mean_c 1 H1) ((1 + 1) / 2) (fun e => (2 * y / e) * (2 * y / e)) (fun e He => id_far 1 e H1 He)) as (i2 & P2 & L2).
    exists (cc y * i1 + (1 - cc y) * i2). 
    assert (Q1 : forall l, unit_draws 4 l -> (ev 1 (g2 (firstn 2 l)) (skipn 2 l) <-> exists v, phi1 l = Some v /\ True)).
    { intros l [L F]. destruct l as [|a [|b [|m [|r [|]]]]]; try discriminate. cbn [firstn skipn ev]. change (phi1 [a; b; m; r]) with (svt_res (g2 [a; b]) m r). unfold svt_res. assert (0 < m < 1). { inversion F as [|? ? _ F1]; subst. inversion F1 as [|? ? _ F2]; subst. inversion F2; subst; assumption. }
      destruct (Rlt_dec r (acc y idK (g2 [a; b]) m)); split; try (intros (A & B); contradiction); try (intros (v & E & _); discriminate); [intros; eexists; split; [reflexivity|trivial]|intros; split; [assumption|lra]]. }
    assert (Q2 : forall l, unit_draws 5 l -> (ev 1 (m3 (firstn 3 l)) (skipn 3 l) <-> exists v, phi2 l = Some v /\ True)).
    { intros l [L F]. destruct l as [|a [|b [|d [|m [|r [|]]]]]]; try discriminate. cbn [firstn skipn ev]. change (phi2 [a; b; d; m; r]) with (svt_res (m3 [a; b; d]) m r). unfold svt_res. assert (0 < m < 1). { inversion F as [|? ? _ F1]; subst. inversion F1 as [|? ? _ F2]; subst. inversion F2 as [|? ? _ F3]; subst. inversion F3; subst; assumption. }
      destruct (Rlt_dec r (acc y idK (m3 [a; b; d]) m)); split; try (intros (A & B); contradiction); try (intros (v & E & _); discriminate); [intros; eexists; split; [reflexivity|trivial]|intros; split; [assumption|lra]]. }
    assert (N1 : forall o : option (R * R), (~ exists v, o = Some v /\ True) <-> o = None). { intros [v|]; split; intros X; try reflexivity; try discriminate; [destruct X; eexists; split; [reflexivity|trivial]|intros (w & E & _); discriminate]. }
    split; [|split].
    - apply (is_lim_ext_loc (fun s => cc y * part g2_dens (mean y idK 1) s + (1 - cc y) * part mx_dens (mean y idK 1) s)); [exists 0; intros s Hs; symmetry; apply (tot_mix y _ (mean_c 1 H1)); lra|].
      apply (is_lim_plus' (fun s => cc y * part g2_dens (mean y idK 1) s) (fun s => (1 - cc y) * part mx_dens (mean y idK 1) s)); [apply (is_lim_scal_l _ (cc y) p_infty i1 L1)|apply (is_lim_scal_l _ (1 - cc y) p_infty i2 L2)].
    - replace (1 - (cc y * i1 + (1 - cc y) * i2)) with (cc y * (1 - i1) + (1 - cc y) * (1 - i2)) by ring. apply (law_choose _ svt_t1 svt_t2 _ (cc y)); [lra|exact svt_asks|intros; reflexivity| |].
      + apply (law_uses _ 4 phi1 _ _ uses1). eapply prob_ext; [|apply prob_not; exact P1]. intros l Hl. cbv beta. rewrite (Q1 l Hl). apply N1.
      + apply (law_uses _ 5 phi2 _ _ uses2). eapply prob_ext; [|apply prob_not; exact P2]. intros l Hl. cbv beta. rewrite (Q2 l Hl). apply N1.
    - apply (law_choose _ svt_t1 svt_t2 _ (cc y)); [lra|exact svt_asks|intros; reflexivity| |].
      + apply (law_uses _ 4 phi1 _ _ uses1). eapply prob_ext; [|exact P1]. intros l Hl. apply (Q1 l Hl).
      + apply (law_uses _ 5 phi2 _ _ uses2). eapply prob_ext; [|exact P2]. intros l Hl. apply (Q2 l Hl).
  Qed.
  (** ** the loop *)
  Lemma g2_code a b : - ln (a * b) = g2 [a; b]. Proof. reflexivity. Qed.
  Lemma acc_code w m : 0 < w -> sqrt (y * y + w - 2 * y * sqrt w * (2 * m - 1)) / (sqrt w + y) = acc y idK w m.
  Proof. intros Hw. unfold acc, idK, rx. rewrite (sqrt_sqrt w) by lra. reflexivity. Qed.
  Lemma step_eq f ds : open01 ds -> @svt_loop R NumR (S f) y ds = match svt_turn ds with Ok (Some v, r) => Ok (v, r) | Ok (None, r) => @svt_loop R NumR f y r | _ => NoDraw end.
  Proof.
    intros O. cbn [svt_loop]. destruct ds as [|xi q]; [reflexivity|]. unfold rbind at 1. cbn [draw bind svt_turn]. inversion O as [|? ? Hx Oq]; subst. clear O. change (@nltb R NumR) with Rltb.
    change (@ndiv R NumR (@nofZ R NumR 2) (nadd (nmul (nsqrt npi) y) (@nofZ R NumR 2))) with (cc y). destruct (Rlt_dec xi (cc y)) as [C|C].
    - assert (Rltb xi (cc y) = true) as -> by (apply Rltb_true; exact C). destruct q as [|a [|b [|m [|r q]]]]; try reflexivity.
      inversion Oq as [|? ? Ha O1]; subst. inversion O1 as [|? ? Hb O2]; subst. assert (W : 0 < g2 [a; b]) by (apply g2_pos; split; [reflexivity|repeat constructor; lra]). cbn [svt_t1]. unfold svt_res. rewrite <- (acc_code _ _ W). cbn [rbind draw bind rret g2].
      match goal with |- (if Rltb r ?t' then _ else _) _ = match (if Rlt_dec r ?t then _ else _) with _ => _ end => change t' with t; destruct (Rlt_dec r t) as [Q|Q]; [rewrite (proj2 (Rltb_true r t) Q)|assert (Rltb r t = false) as -> by (apply Rltb_false, Rnot_lt_le; exact Q)]; reflexivity end.
    - assert (Rltb xi (cc y) = false) as -> by (apply Rltb_false, Rnot_lt_le; exact C). destruct q as [|a [|b [|d [|m [|r q]]]]]; try reflexivity.
      inversion Oq as [|? ? Ha O1]; subst. inversion O1 as [|? ? Hb O2]; subst. inversion O2 as [|? ? Hd O3]; subst. assert (W : 0 < m3 [a; b; d]) by (apply m3_pos; split; [reflexivity|repeat constructor; lra]). cbn [svt_t2]. unfold svt_res. rewrite <- (acc_code _ _ W). cbn [rbind draw bind rret m3].
      match goal with |- (if Rltb r ?t' then _ else _) _ = match (if Rlt_dec r ?t then _ else _) with _ => _ end => change t' with t; destruct (Rlt_dec r t) as [Q|Q]; [rewrite (proj2 (Rltb_true r t) Q)|assert (Rltb r t = false) as -> by (apply Rltb_false, Rnot_lt_le; exact Q)]; reflexivity end.
  Qed.
  Lemma turn_res ds : svt_turn ds = NoDraw \/ exists o r, svt_turn ds = Ok (o, r).
  Proof.
    destruct ds as [|xi q]; [left; reflexivity|]. cbn [svt_turn]. destruct (Rlt_dec xi (cc y)).
    - destruct q as [|a [|b [|m [|z q]]]]; [left; reflexivity..|right; eexists _, _; reflexivity].
    - destruct q as [|a [|b [|d [|m [|z q]]]]]; [left; reflexivity..|right; eexists _, _; reflexivity].
  Qed.
  Lemma fuel_free : forall n ds f f', (length ds <= n)%nat -> open01 ds -> (length ds < f)%nat -> (length ds < f')%nat -> @svt_loop R NumR f y ds = @svt_loop R NumR f' y ds.
  Proof.
    induction n as [|n IH]; intros ds f f' L O H H'; (destruct f as [|f]; [lia|]); (destruct f' as [|f']; [lia|]); rewrite !step_eq by exact O; destruct (turn_res ds) as [->|([v|] & r & E)]; try reflexivity; rewrite ?E; try reflexivity; destruct (steady_shorter _ _ _ _ svt_steady svt_asks O E) as [Lr Or].
    - lia.
    - apply IH; [lia|exact Or|lia|lia].
  Qed.
  Definition svt_all : rand R (R * R) := fun ds => @svt_loop R NumR (S (length ds)) y ds.
  Lemma svt_loops : loops svt_all svt_turn.
  Proof.
    intros ds O. unfold svt_all. rewrite step_eq by exact O. destruct (turn_res ds) as [->|([v|] & r & E)]; [intros v r; discriminate|rewrite E; reflexivity|]. rewrite E. destruct (steady_shorter _ _ _ _ svt_steady svt_asks O E) as [Lr Or]. apply (fuel_free (length r)); try lia; try exact Or.
  Qed.
  Lemma tot_mono M a b : -1 <= M <= 1 -> 0 <= a -> a <= b -> tot y (mean y idK M) a <= tot y (mean y idK M) b.
  Proof.
    intros HM Ha Hb. rewrite !(tot_mix y _ (mean_c M HM)) by lra. pose proof (cc_range y Hy).
    pose proof (part_mono 2 g2_dens (mean y idK M) (ev M) g2_dens_pos (fun x _ => g2_dens_c x) (fun w Hw => ev_prob M w HM Hw) (mean_c M HM) a b Ha Hb) as P1. pose proof (part_mono 2 mx_dens (mean y idK M) (ev M) mx_dens_pos (fun x _ => mx_dens_c x) (fun w Hw => ev_prob M w HM Hw) (mean_c M HM) a b Ha Hb) as P2. nra.
  Qed.
  Lemma tot_pos : 0 < tot y (mean y idK 1) 1.
  Proof.
    apply RInt_gt_0; [lra| |].
    - intros w Hw. apply Rmult_lt_0_compat; [|apply mixd_pos; lra]. assert (H1 : -1 <= 1 <= 1) by lra. pose proof (acc_mean y Hy idK idPhi 1 id_sub H1 w) as I. rewrite <- (@is_RInt_unique R_CompleteNormedModule _ _ _ _ I). apply RInt_gt_0; [lra| |].
      + intros m Hm. unfold acc, idK. assert (X : 0 < sqrt w) by (apply sqrt_lt_R0; lra). apply Rdiv_lt_0_compat; [|lra]. pose proof (rx_dec_lt y Hy (sqrt w) (2 * m - 1) 1 X ltac:(lra) ltac:(lra) ltac:(lra)). pose proof (rx_pos y (sqrt w) 1). lra.
      + intros m Hm. apply (continuous_ext (fun m => rx y (sqrt w) (2 * m - 1) * / (sqrt w + y))); [reflexivity|]. apply (@continuous_mult R_UniformSpace R_AbsRing); [|apply continuous_const]. apply (c_comp (rx y (sqrt w)) (fun m => 2 * m - 1)); [apply edc; auto_derive; exact Logic.I|apply rx_cont_mu].
    - intros w Hw. apply (@continuous_mult R_UniformSpace R_AbsRing); [|apply mixd_c]. apply continuity_pt_filterlim, mean_c; lra.
  Qed.
  (** the law of the pair *)
  Lemma pair_law : exists a : R, 0 < a /\ is_lim (tot y (mean y idK 1)) p_infty a /\ law svt_all (fun _ => True) 1 /\ forall S0 M, 0 < S0 -> -1 <= M <= 1 -> law svt_all (hits S0 M) (tot y (mean y idK M) S0 / a).
  Proof.
    destruct turn_miss as (a & La & Ln & Ls). assert (Pa : 0 < a). { apply Rlt_le_trans with (1 := tot_pos). pose proof (is_lim_le_loc (fun _ => tot y (mean y idK 1) 1) (tot y (mean y idK 1)) p_infty (tot y (mean y idK 1) 1) a) as Q. apply Q; [exists 1; intros s Hs; apply tot_mono; lra|apply is_lim_const|exact La]. }
    exists a. split; [exact Pa|]. split; [exact La|]. split.
    - replace 1 with (a / a) by (field; lra). apply (law_loop svt_all svt_turn _ a a svt_steady svt_asks svt_loops Ls Ln Pa).
    - intros S0 M HS HM. apply (law_loop svt_all svt_turn _ a _ svt_steady svt_asks svt_loops (turn_hit S0 M HS HM) Ln Pa).
  Qed.
End Svt.
