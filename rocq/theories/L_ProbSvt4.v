(** * The two proposal densities, their mixture and the law of one trial *)
From Coq Require Import Reals Lra Lia List Arith ZifyBool ZifyNat. From Coquelicot Require Import Coquelicot.
From Verif Require Import Base NumR L_Legendre L_Interp2 L_Spectra L_Spectra2 S_Prob L_Prob L_ProbEv L_Prob2 L_Gauss L_ProbMw L_ProbLaw L_ProbLoop L_ProbSvt L_ProbSvt2 L_ProbSvt3. Import ListNotations.
Local Open Scope R_scope.
Local Notation iR := (@is_RInt R_NormedModule).

Definition g2_F (s : R) : R := 1 - exp (- s) - s * exp (- s).
Lemma lim1 (F : R -> R) C : 0 < C -> (forall s, 1 <= s -> Rabs (F s - 1) <= C / s) -> is_lim F p_infty 1.
Proof.
  intros HC H. apply is_lim_spec. intros eps. pose proof (cond_pos eps) as Pe. exists (Rmax 1 (C / eps)). intros s Hs. pose proof (Rmax_l 1 (C / eps)). pose proof (Rmax_r 1 (C / eps)). eapply Rle_lt_trans; [apply H; lra|]. apply Rlt_div_l; [lra|]. assert (C / eps < s) as Q by lra. apply Rlt_div_l in Q; [|lra]. lra.
Qed.
Lemma sexp s : 1 <= s -> s * exp (- s) <= 4 / s.
Proof.
  intros Hs. assert (E : exp (- s) = exp (- (s / 2)) * exp (- (s / 2))) by (rewrite <- exp_plus; f_equal; field). pose proof (exp_inv (s / 2) ltac:(lra)) as I. pose proof (exp_pos (- (s / 2))) as P. set (e := exp (- (s / 2))) in *. rewrite E. replace (/ (s / 2)) with (2 / s) in I by (field; lra). assert (e * e <= 2 / s * (2 / s)) by (apply Rmult_le_compat; lra). apply Rle_trans with (s * (2 / s * (2 / s))); [apply Rmult_le_compat_l; lra|]. right. field. lra.
Qed.
Lemma g2_lim : is_lim g2_F p_infty 1.
Proof.
  apply (lim1 _ 5 ltac:(lra)). intros s Hs. unfold g2_F. pose proof (sexp s Hs) as A. pose proof (exp_inv s ltac:(lra)) as B. pose proof (exp_pos (- s)). assert (E : 4 / s + / s = 5 / s) by (field; lra). rewrite Rabs_left1; nra.
Qed.
Lemma mx_lim : is_lim MX p_infty 1.
Proof.
  pose proof sqrtpi as SP. pose proof sqrtpi2 as SP2. pose proof PI_RGT_0 as PP. set (C := 2 / sqrt PI * (2 / sqrt PI) + 2 / sqrt PI * 4). assert (I0 : 0 < 2 / sqrt PI) by (apply Rdiv_lt_0_compat; lra).
  apply (lim1 _ C); [unfold C; nra|]. intros s Hs. unfold MX. rewrite erf_G. assert (Q : 0 <= sqrt s) by apply sqrt_pos. pose proof (G_limit (sqrt s) Q) as [A B]. rewrite sqrt_sqrt in B by lra. pose proof (sexp s Hs) as D. pose proof (exp_inv s ltac:(lra)) as D2. pose proof (exp_pos (- s)) as Ep.
  assert (sqrt s <= s). { rewrite <- (sqrt_square s) at 2 by lra. apply sqrt_le_1_alt. nra. } assert (D3 : sqrt s * exp (- s) <= 4 / s) by (apply Rle_trans with (2 := D); apply Rmult_le_compat_r; lra). assert (D4 : 0 <= sqrt s * exp (- s)) by (apply Rmult_le_pos; lra).
  assert (E1 : 2 / sqrt PI * G (sqrt s) - 1 = - (2 / sqrt PI * (sqrt PI / 2 - G (sqrt s)))) by (field; lra).
  replace (2 / sqrt PI * G (sqrt s) - 2 / sqrt PI * (sqrt s * exp (- s)) - 1) with (- (2 / sqrt PI * (sqrt PI / 2 - G (sqrt s)) + 2 / sqrt PI * (sqrt s * exp (- s)))) by (rewrite <- (Rplus_0_r (2 / sqrt PI * G (sqrt s))); lra). rewrite Rabs_Ropp, Rabs_pos_eq.
  - unfold C. replace ((2 / sqrt PI * (2 / sqrt PI) + 2 / sqrt PI * 4) / s) with (2 / sqrt PI * (2 / sqrt PI * / s) + 2 / sqrt PI * (4 / s)) by (field; lra). apply Rplus_le_compat; apply Rmult_le_compat_l; try lra. apply Rle_trans with (1 := B). apply Rmult_le_compat_l; lra.
  - apply Rplus_le_le_0_compat; apply Rmult_le_pos; lra.
Qed.
Lemma g2_dens_c x : continuous g2_dens x. Proof. unfold g2_dens. apply edc. auto_derive. exact Logic.I. Qed.
Lemma mx_dens_c x : continuous mx_dens x.
Proof. unfold mx_dens. apply (c_comp (fun t => 2 / sqrt PI * t) (fun v => sqrt v * exp (- v))); [|apply edc; auto_derive; exact Logic.I]. apply (@continuous_mult R_UniformSpace R_AbsRing); [apply continuous_sqrt|apply edc; auto_derive; exact Logic.I]. Qed.
Lemma g2_dens_pos x : 0 < x -> 0 <= g2_dens x. Proof. intros H. unfold g2_dens. pose proof (exp_pos (- x)). nra. Qed.
Lemma mx_dens_pos x : 0 < x -> 0 <= mx_dens x.
Proof. intros H. unfold mx_dens. pose proof (exp_pos (- x)). pose proof (sqrt_pos x). pose proof sqrtpi. assert (0 < 2 / sqrt PI) by (apply Rdiv_lt_0_compat; lra). apply Rmult_le_pos; [lra|]. apply Rmult_le_pos; lra. Qed.

Section Mix.
  Variable y : R. Hypothesis Hy : 0 < y.
  Definition cc : R := 2 / (sqrt PI * y + 2).
  Lemma cc_den : 0 < sqrt PI * y + 2. Proof. pose proof sqrtpi. assert (0 < sqrt PI * y) by (apply Rmult_lt_0_compat; assumption). lra. Qed.
  Lemma cc_range : 0 < cc < 1.
  Proof. pose proof sqrtpi. assert (0 < sqrt PI * y) by (apply Rmult_lt_0_compat; assumption). unfold cc. split; [apply Rdiv_lt_0_compat; lra|]. apply Rlt_div_l; lra. Qed.
  (** the mixture of the two densities *)
  Definition mixd (w : R) : R := cc * g2_dens w + (1 - cc) * mx_dens w.
  Lemma mixd_eq w : 0 <= w -> mixd w = 2 / (sqrt PI * y + 2) * (sqrt w * (sqrt w + y) * exp (- w)).
  Proof.
    intros Hw. pose proof cc_den. pose proof sqrtpi. unfold mixd, cc, g2_dens, mx_dens. rewrite <- (sqrt_sqrt w) at 1 by exact Hw. field. split; lra.
  Qed.
  Lemma mixd_pos w : 0 < w -> 0 < mixd w.
  Proof. intros Hw. rewrite mixd_eq by lra. pose proof cc_den. pose proof (exp_pos (- w)). pose proof (sqrt_lt_R0 w Hw). apply Rmult_lt_0_compat; [apply Rdiv_lt_0_compat; lra|]. apply Rmult_lt_0_compat; [|assumption]. apply Rmult_lt_0_compat; lra. Qed.
  Lemma mixd_c w : continuous mixd w.
  Proof. unfold mixd. apply (@continuous_plus R_UniformSpace R_AbsRing R_NormedModule); (apply (@continuous_mult R_UniformSpace R_AbsRing); [apply continuous_const|]); [apply g2_dens_c|apply mx_dens_c]. Qed.
  Definition tot (H : R -> R) (S0 : R) : R := RInt (fun w => H w * mixd w) 0 S0.
  Section Tot.
    Variables (H : R -> R). Hypothesis hc : forall x, 0 <= x -> continuity_pt H x.
    Lemma hcc x : 0 <= x -> continuous H x. Proof. intros Hx. apply continuity_pt_filterlim, hc, Hx. Qed.
    Lemma tot_int S0 : 0 <= S0 -> iR (fun w => H w * mixd w) 0 S0 (tot H S0).
    Proof. intros HS. apply (@RInt_correct R_CompleteNormedModule). apply (@ex_RInt_continuous R_CompleteNormedModule). intros x Hx. rewrite Rmin_left, Rmax_right in Hx by lra. apply (@continuous_mult R_UniformSpace R_AbsRing); [apply hcc; lra|apply mixd_c]. Qed.
    Lemma tot_mix S0 : 0 <= S0 -> tot H S0 = cc * part g2_dens H S0 + (1 - cc) * part mx_dens H S0.
    Proof.
      intros HS. assert (I1 : forall f, (forall x, continuous f x) -> iR (fun x => H x * f x) 0 S0 (part f H S0)). { intros f fc. unfold part. apply (@RInt_correct R_CompleteNormedModule). apply (@ex_RInt_continuous R_CompleteNormedModule). intros x Hx. rewrite Rmin_left, Rmax_right in Hx by lra. apply (@continuous_mult R_UniformSpace R_AbsRing); [apply hcc; lra|apply fc]. }
      pose proof (@is_RInt_scal R_NormedModule _ _ _ cc _ (I1 _ g2_dens_c)) as A. pose proof (@is_RInt_scal R_NormedModule _ _ _ (1 - cc) _ (I1 _ mx_dens_c)) as B. pose proof (@is_RInt_plus R_NormedModule _ _ _ _ _ _ A B) as C. unfold tot. apply (@is_RInt_unique R_CompleteNormedModule). eapply is_RInt_ext; [|exact C].
      intros x _. unfold mixd, scal, plus. cbn. unfold mult. cbn. match goal with |- ?a = ?b => change (@eq R a b) end. ring.
    Qed.
  End Tot.
  Section Trial.
    Variables (k : nat) (H : R -> R) (E : R -> list R -> Prop).
    Hypothesis Edec : forall w l, {E w l} + {~ E w l}.
    Hypothesis HE : forall w, 0 < w -> prob k (E w) (H w).
    Hypothesis hc : forall x, 0 <= x -> continuity_pt H x.
    Lemma below1 S0 : 0 < S0 -> prob (2 + k) (fun l => g2 (firstn 2 l) <= S0 /\ E (g2 (firstn 2 l)) (skipn 2 l)) (part g2_dens H S0).
    Proof. apply (after_below 2 k g2 g2_dens g2_F H 0 E Edec g2_pos g2_prob (fun s _ => g2_dens_int s) g2_dens_pos (fun x _ => g2_dens_c x) HE hc). Qed.
    Lemma below2 S0 : 0 < S0 -> prob (3 + k) (fun l => m3 (firstn 3 l) <= S0 /\ E (m3 (firstn 3 l)) (skipn 3 l)) (part mx_dens H S0).
    Proof. apply (after_below 3 k m3 mx_dens MX H 0 E Edec m3_pos m3_prob mx_dens_int mx_dens_pos (fun x _ => mx_dens_c x) HE hc). Qed.
    Variables (L : R) (Sf : R -> R).
    Hypothesis hl : forall eps, 0 < eps -> forall w, Sf eps < w -> Rabs (H w - L) <= eps.
    Lemma all1 : exists I : R, prob (2 + k) (fun l => E (g2 (firstn 2 l)) (skipn 2 l)) I /\ is_lim (part g2_dens H) p_infty I.
    Proof. apply (after_all 2 k g2 g2_dens g2_F H L Sf E Edec g2_pos g2_prob (fun s _ => g2_dens_int s) g2_dens_pos (fun x _ => g2_dens_c x) g2_lim HE hc hl). Qed.
    Lemma all2 : exists I : R, prob (3 + k) (fun l => E (m3 (firstn 3 l)) (skipn 3 l)) I /\ is_lim (part mx_dens H) p_infty I.
    Proof. apply (after_all 3 k m3 mx_dens MX H L Sf E Edec m3_pos m3_prob mx_dens_int mx_dens_pos (fun x _ => mx_dens_c x) mx_lim HE hc hl). Qed.
  End Trial.
  (** ** choosing between two samplers with one random number *)
  Lemma law_choose {A} (s s1 s2 : rand R A) (B : A -> Prop) c q1 q2 : 0 <= c <= 1 -> asks s ->
    (forall x ds, 0 < x < 1 -> open01 ds -> s (x :: ds) = if Rlt_dec x c then s1 ds else s2 ds) -> law s1 B q1 -> law s2 B q2 -> law s B (c * q1 + (1 - c) * q2).
  Proof.
    intros Hc S0 S1 (p1 & H1 & L1) (p2 & H2 & L2). exists (fun k => match k with O => 0 | S m => c * p1 m + (1 - c) * p2 m end). split.
    - intros [|m].
      + apply prob_never. intros l [Hl _] (v & r & E & _). destruct l; [|discriminate]. exact (S0 v r E).
      + destruct (H1 m) as (f1 & I1 & E1), (H2 m) as (f2 & I2 & E2). exists (fun l => match l with x :: t => if Rlt_dec x c then f1 t else f2 t | _ => 0 end). split.
        * intros l Hl. destruct l as [|x t]; [destruct Hl; discriminate|]. apply ud_cons in Hl as [Hx Ht]. rewrite (S1 x t Hx (proj2 Ht)). destruct (Rlt_dec x c); [apply I1|apply I2]; exact Ht.
        * exists (fun x => if Rlt_dec x c then p1 m else p2 m). split; [intros x Hx; destruct (Rlt_dec x c); assumption|]. eapply iR_eq; [|apply (iR_step _ c (p1 m) (p2 m) Hc)]; [ring| |]; intros x Hx; destruct (Rlt_dec x c); try reflexivity; lra.
    - apply is_lim_seq_incr_1. apply (is_lim_seq_plus' (fun n => c * p1 n) (fun n => (1 - c) * p2 n)); [apply (is_lim_seq_scal_l p1 c q1 L1)|apply (is_lim_seq_scal_l p2 (1 - c) q2 L2)].
  Qed.
End Mix.
