(** * From the reduced variables of the loop to speeds *)
From Coq Require Import Reals Lra Lia List Arith ZifyBool ZifyNat. From Coquelicot Require Import Coquelicot.
From Verif Require Import Base NumR M_Kin S_Kin S_Doppler S_ProbSvt L_Search L_Legendre L_Interp2 L_Spectra L_Spectra2 S_Prob L_Prob L_ProbEv L_Prob2 L_Gauss L_ProbMw L_ProbLaw L_ProbLoop L_ProbSvt L_ProbSvt2 L_ProbSvt3 L_ProbSvt4. Import ListNotations.
Local Open Scope R_scope.
Local Notation iR := (@is_RInt R_NormedModule).

Section Phys.
  Variables Ein kT awr : R. Hypothesis HE : 0 < Ein. Hypothesis Hk : 0 < kT. Hypothesis Ha : 0 < awr.
  Let y := reduced Ein kT awr.
  Let b := sqrt (awr / kT).
  Lemma b_pos : 0 < b. Proof. apply sqrt_lt_R0, Rdiv_lt_0_compat; assumption. Qed.
  Lemma b_sq : b * b = awr / kT. Proof. apply sqrt_sqrt. left. apply Rdiv_lt_0_compat; assumption. Qed.
  Lemma y_b : y = b * sqrt Ein. Proof. unfold y, b, reduced. rewrite <- sqrt_mult_alt by (left; apply Rdiv_lt_0_compat; assumption). f_equal. field. lra. Qed.
  Lemma y_pos : 0 < y. Proof. rewrite y_b. apply Rmult_lt_0_compat; [apply b_pos|apply sqrt_lt_R0; exact HE]. Qed.
  Lemma rx_phys u mu : rx y (b * u) mu = b * relative_speed Ein u mu.
  Proof.
    unfold rx, relative_speed. pose proof b_pos as B. rewrite y_b. match goal with |- _ = _ * ?r => transitivity (sqrt (b * b) * r); [|rewrite sqrt_square by lra; reflexivity] end. rewrite <- sqrt_mult_alt by nra. f_equal. pose proof (sqrt_sqrt Ein ltac:(lra)) as Q. replace (b * sqrt Ein * (b * sqrt Ein)) with (b * b * (sqrt Ein * sqrt Ein)) by ring. rewrite Q. ring.
  Qed.
  Variables (K Phi k : R -> R) (q M : R).
  Hypothesis SK : sub y K Phi.
  Hypothesis KB : forall t, 0 <= t -> 0 <= K t <= t.
  Hypothesis Ky : continuous K y.
  Hypothesis Kk : forall t, 0 <= t -> K (b * t) = q * k t.
  Hypothesis Hq : 0 < q.
  Hypothesis HM : -1 <= M <= 1.
  Definition gamma : R := 2 * / (sqrt PI * y + 2) * q * (b * b * b).
  Lemma gamma_pos : 0 < gamma. Proof. pose proof b_pos. pose proof (cc_den y y_pos). unfold gamma. repeat apply Rmult_lt_0_compat; try lra. apply Rinv_0_lt_compat. lra. Qed.
  Definition gg (u : R) : R := (Phi (b * u + y) - Phi (rx y (b * u) M)) / (b * u * y) / q.
  Lemma rs_pos u mu : 0 <= relative_speed Ein u mu. Proof. apply sqrt_pos. Qed.
  Lemma gg_int u : 0 < u -> iR (fun mu => k (relative_speed Ein u mu)) (- 1) M (gg u).
  Proof.
    intros Hu. pose proof b_pos as B. assert (X : 0 < b * u) by nra. pose proof (proj2 SK (b * u) M X HM) as Q. apply (@is_RInt_scal R_NormedModule _ _ _ (/ q)) in Q. eapply iR_eq; [|eapply is_RInt_ext; [|exact Q]].
    - unfold scal, gg. cbn. unfold mult. cbn. unfold Rdiv. ring.
    - intros mu _. unfold scal. cbn. unfold mult. cbn. rewrite rx_phys, Kk by apply rs_pos. match goal with |- ?a = ?b => change (@eq R a b) end. field. lra.
  Qed.
  Lemma mean_gg u : 0 < u -> mean y K M (b * u * (b * u)) = q * gg u / (2 * (b * u + y)).
  Proof.
    intros Hu. pose proof b_pos as B. pose proof y_pos as Y. assert (X : 0 < b * u) by nra. assert (W : 0 < b * u * (b * u)) by nra. pose proof (acc_int y Y K Phi M SK HM _ W) as Q. rewrite sqrt_square in Q by lra. unfold mean. rewrite (@is_RInt_unique R_CompleteNormedModule _ _ _ _ Q). unfold gg. field. repeat split; lra.
  Qed.
  Lemma weight_phys V : 0 < V -> exists J : R, reaction_weight k Ein kT awr V M J /\ tot y (mean y K M) (b * V * (b * V)) = gamma * J.
  Proof.
    intros HV. pose proof b_pos as B. pose proof y_pos as Y. pose proof gamma_pos as Gp. pose proof (cc_den y Y) as Cd. set (Q := fun w => mean y K M w * mixd y w).
    assert (CQ : forall w, 0 <= w -> continuous Q w). { intros w Hw. apply (@continuous_mult R_UniformSpace R_AbsRing); [|apply mixd_c]. apply continuity_pt_filterlim. apply (mean_cont y Y K Phi M SK KB Ky HM w Hw). }
    pose proof (@is_RInt_comp R_CompleteNormedModule Q (fun u => b * u * (b * u)) (fun u => 2 * (b * b) * u) 0 V) as IC.
    assert (I0 : iR (fun u => scal (2 * (b * b) * u) (Q (b * u * (b * u)))) 0 V (RInt Q (b * 0 * (b * 0)) (b * V * (b * V)))).
    { apply IC.
      - intros x Hx. rewrite Rmin_left, Rmax_right in Hx by lra. apply CQ. apply Rle_0_sqr.
      - intros x Hx. split; [auto_derive; [exact Logic.I|ring]|apply edc; auto_derive; exact Logic.I]. }
    replace (b * 0 * (b * 0)) with 0 in I0 by ring. change (RInt Q 0 (b * V * (b * V))) with (tot y (mean y K M) (b * V * (b * V))) in I0.
    exists (tot y (mean y K M) (b * V * (b * V)) / gamma). split; [|field; lra]. exists gg. split; [intros u Hu; apply gg_int; lra|].
    apply (@is_RInt_scal R_NormedModule _ _ _ (/ gamma)) in I0. eapply iR_eq; [|eapply iR_ext; [| |exact I0]]; [unfold scal; cbn; unfold mult; cbn; unfold Rdiv; ring|lra|].
    intros u Hu. unfold scal. cbn. unfold mult. cbn. unfold Q. rewrite mean_gg by lra. assert (X : 0 < b * u) by nra. rewrite mixd_eq by (assumption || apply Rle_0_sqr). rewrite sqrt_square by lra.
    replace (awr * (u * u) / kT) with (b * u * (b * u)) by (replace (b * u * (b * u)) with (b * b * (u * u)) by ring; rewrite b_sq; field; lra). unfold gamma. field. repeat split; lra.
  Qed.
  Lemma weight_unique V J J' : 0 < V -> reaction_weight k Ein kT awr V M J -> reaction_weight k Ein kT awr V M J' -> J = J'.
  Proof.
    intros HV (g & G1 & G2) (g' & G1' & G2'). apply (iR_ext _ (fun u => u * u * exp (- (awr * (u * u) / kT)) * g' u)) in G2; [|lra|].
    - apply (@is_RInt_unique R_CompleteNormedModule) in G2, G2'. rewrite <- G2. exact G2'.
    - intros u Hu. f_equal. specialize (G1 u Hu). specialize (G1' u Hu). apply (@is_RInt_unique R_CompleteNormedModule) in G1, G1'. rewrite <- G1. exact G1'.
  Qed.
End Phys.
