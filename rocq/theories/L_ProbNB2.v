(** * N-body phase space: the distributions of minus the logarithm of three numbers, and of the same plus a Maxwell energy *)
From Coq Require Import Reals Lra Lia List Arith ZifyBool ZifyNat. From Coquelicot Require Import Coquelicot.
From Verif Require Import Base NumR L_Legendre L_Interp2 L_Spectra L_Spectra2 S_Prob L_Prob L_ProbEv L_Prob2 L_Gauss L_ProbMw L_ProbLaw L_ProbLoop L_ProbSvt L_ProbSvt2 L_ProbSvt4 L_ProbNB. Import ListNotations.
Local Open Scope R_scope.
Local Notation iR := (@is_RInt R_NormedModule).

(** ** powers lose against the exponential *)
Lemma pexp k s : (0 < k)%nat -> 0 < s -> s ^ k * exp (- s) <= INR k ^ k.
Proof.
  intros Hk Hs. assert (Pk : 0 < INR k) by (apply lt_0_INR; exact Hk). assert (E : exp s = exp (s / INR k) ^ k).
  { rewrite <- Rpower_pow by apply exp_pos. unfold Rpower. rewrite ln_exp. f_equal. field. lra. }
  assert (L : (s / INR k) ^ k <= exp s). { rewrite E. apply pow_incr. pose proof (exp_ineq1_le (s / INR k)). assert (0 < s / INR k) by (apply Rdiv_lt_0_compat; assumption). lra. }
  rewrite exp_Ropp. replace (s ^ k) with ((s / INR k) ^ k * INR k ^ k) by (rewrite <- Rpow_mult_distr; f_equal; field; lra).
  apply Rle_trans with (exp s * INR k ^ k * / exp s); [|right; field; pose proof (exp_pos s); lra]. apply Rmult_le_compat_r; [left; apply Rinv_0_lt_compat, exp_pos|]. apply Rmult_le_compat_r; [apply pow_le; lra|exact L].
Qed.
Lemma zero_of (f : R -> R) (C : R) : (forall s, 1 <= s -> 0 <= f s <= C * / s) -> is_lim f p_infty 0.
Proof.
  intros H. apply (is_lim_le_le_loc (fun _ => 0) (fun s => C * / s)).
  - exists 1. intros s Hs. apply H. lra.
  - apply is_lim_const.
  - eapply is_lim_ext; [intros; reflexivity|]. replace (Finite 0) with (Rbar_mult C (Rbar_inv p_infty)) by (cbn; f_equal; ring). apply is_lim_scal_l. apply is_lim_inv; [apply is_lim_id|discriminate].
Qed.
Lemma pexp0 k (c : R) : 0 <= c -> is_lim (fun s => c * (s ^ k * exp (- s))) p_infty 0.
Proof.
  intros Hc. apply (zero_of _ (c * INR (S k) ^ S k)). intros s Hs. pose proof (pexp (S k) s ltac:(lia) ltac:(lra)) as P. pose proof (exp_pos (- s)). assert (0 < s ^ k) by (apply pow_lt; lra). split; [apply Rmult_le_pos; [exact Hc|apply Rmult_le_pos; lra]|].
  rewrite Rmult_assoc. apply Rmult_le_compat_l; [exact Hc|]. change (s ^ S k) with (s * s ^ k) in P. apply (Rmult_le_reg_l s); [lra|]. replace (s * (INR (S k) ^ S k * / s)) with (INR (S k) ^ S k) by (field; lra). rewrite <- Rmult_assoc. exact P.
Qed.
(** ** three numbers *)
Definition g3 (l : list R) : R := match l with [a; b; c] => - ln (a * b * c) | _ => 0 end.
Definition G3 (s : R) : R := 1 - exp (- s) * (1 + s + s * s / 2).
Definition g3_dens (w : R) : R := 1 / 2 * (w * w * exp (- w)).
Lemma ud2 l : unit_draws 2 l -> exists x y, l = [x; y] /\ 0 < x < 1 /\ 0 < y < 1.
Proof. intros [L F]. destruct l as [|x [|y [|]]]; try discriminate. inversion F as [|? ? A B]. inversion B as [|? ? C D]. eauto 6. Qed.
Lemma g3_pos l : unit_draws 3 l -> 0 < g3 l.
Proof. intros H. destruct (ud3 l H) as (a & b & c & -> & A & B & C). cbn. assert (0 < a * b) by nra. assert (a * b < 1) by nra. pose proof (ln_neg01 (a * b * c) ltac:(nra)). lra. Qed.
Lemma g3_split a b c : 0 < a < 1 -> 0 < b < 1 -> 0 < c < 1 -> g3 [a; b; c] = g2 [a; b] - ln c.
Proof. intros A B C. cbn. rewrite (ln_mult (a * b) c) by nra. ring. Qed.
Definition E3 (s w : R) (l : list R) : Prop := match l with [c] => w - ln c <= s | _ => False end.
Lemma E3_dec s w l : {E3 s w l} + {~ E3 s w l}.
Proof. destruct l as [|c [|]]; cbn; try (right; tauto). destruct (Rle_dec (w - ln c) s); [left|right]; assumption. Qed.
Definition H3 (s w : R) : R := 1 - exp (- Rmax (s - w) 0).
Lemma H3_c s x : continuity_pt (H3 s) x.
Proof.
  apply continuity_pt_filterlim. apply (c_minus (fun _ => 1) (fun w => exp (- Rmax (s - w) 0))); [apply c_const|]. apply (c_comp (fun t => exp (- t)) (fun w => Rmax (s - w) 0)); [|apply edc; auto_derive; exact Logic.I].
  apply (c_comp (fun t => Rmax t 0) (fun w => s - w)); [apply edc; auto_derive; exact Logic.I|apply c_max].
Qed.
Lemma exp1_prob t : 0 <= t -> prob 1 (fun l => match l with [c] => - ln c <= t | _ => False end) (1 - exp (- t)).
Proof.
  intros Ht. assert (E : 0 <= exp (- t) <= 1). { split; [left; apply exp_pos|]. rewrite <- exp_0. destruct Ht as [Ht| <-]; [left; apply exp_increasing; lra|rewrite Ropp_0; lra]. }
  assert (K : forall x, 0 < x -> (- ln x <= t <-> exp (- t) <= x)).
  { intros x Hx. split; intros H; [rewrite <- (exp_ln x) by exact Hx|]. - destruct (Req_dec (- t) (ln x)) as [->|N]; [lra|left; apply exp_increasing; lra]. - apply Ropp_le_cancel. rewrite Ropp_involutive. rewrite <- (ln_exp (- t)). destruct H as [H| <-]; [left; apply ln_increasing; [apply exp_pos|exact H]|lra]. }
  exists (fun l => match l with [c] => if Rle_dec (exp (- t)) c then 1 else 0 | _ => 0 end). split.
  - intros l Hl. destruct (ud1 l Hl) as (c & -> & Hc). destruct (Rle_dec (exp (- t)) c) as [L|L]; [left|right]; (split; [|reflexivity]); rewrite (K c) by lra; assumption.
  - exists (fun c => if Rle_dec (exp (- t)) c then 1 else 0). split; [intros; reflexivity|]. eapply iR_eq; [|apply (iR_step _ (exp (- t)) 0 1 E)]; [ring| |]; intros x Hx; destruct (Rle_dec (exp (- t)) x); lra.
Qed.
Lemma H3_prob s w : 0 < w -> prob 1 (E3 s w) (H3 s w).
Proof.
  intros Hw. unfold H3. destruct (Rle_dec w s) as [L|L].
  - rewrite Rmax_left by lra. eapply prob_ext; [|apply exp1_prob; lra]. intros l Hl. destruct (ud1 l Hl) as (c & -> & Hc). cbn. lra.
  - rewrite Rmax_right, Ropp_0, exp_0 by lra. replace (1 - 1) with 0 by ring. apply prob_never. intros l Hl. destruct (ud1 l Hl) as (c & -> & Hc). cbn. pose proof (ln_neg01 c Hc). lra.
Qed.
Lemma g3_prob s : 0 <= s -> prob 3 (fun l => g3 l <= s) (G3 s).
Proof.
  intros [Hs| <-]; [|unfold G3; rewrite Ropp_0, exp_0; eapply prob_val; [|apply prob_never]; [lra|intros l Hl; pose proof (g3_pos l Hl); lra]].
  pose proof (after_below 2 1 g2 g2_dens g2_F (H3 s) 0 (E3 s) (E3_dec s) g2_pos g2_prob (fun s _ => g2_dens_int s) g2_dens_pos (fun x _ => g2_dens_c x) (H3_prob s) (fun x _ => H3_c s x) s Hs) as P.
  eapply prob_val; [|eapply prob_ext; [|exact P]].
  - unfold part. apply (@is_RInt_unique R_CompleteNormedModule). apply (iR_ext (fun w => w * exp (- w) - exp (- s) * w)); [lra| |].
    + intros w Hw. unfold H3, g2_dens. rewrite Rmax_left by lra. replace (exp (- (s - w))) with (exp (- s) * exp w) by (rewrite <- exp_plus; f_equal; ring). assert (exp w * exp (- w) = 1) by (rewrite <- exp_plus, Rplus_opp_r; apply exp_0). transitivity (w * exp (- w) - exp (- s) * w * (exp w * exp (- w))); [rewrite H; ring|ring].
    + eapply iR_eq; [|apply (@is_RInt_derive R_CompleteNormedModule (fun w => - (1 + w) * exp (- w) - exp (- s) * (w * w / 2)))].
      * unfold minus, plus, opp. cbn. unfold G3. rewrite Ropp_0, exp_0. field.
      * intros x _. auto_derive; [exact Logic.I|]. field.
      * intros x _. apply edc. auto_derive. exact Logic.I.
  - intros l Hl. cbn [Nat.add] in Hl. destruct (ud3 l Hl) as (a & b & c & -> & A & B & C). cbn [firstn skipn E3]. rewrite (g3_split a b c A B C). pose proof (ln_neg01 c C). split; [intros [_ X]; exact X|intros X; split; lra].
Qed.
Lemma g3_dens_int s : iR g3_dens 0 s (G3 s).
Proof.
  eapply iR_eq; [|apply (@is_RInt_derive R_CompleteNormedModule (fun w => - (1 + w + w * w / 2) * exp (- w)) g3_dens)].
  - unfold minus, plus, opp. cbn. unfold G3. rewrite Ropp_0, exp_0. field.
  - intros x _. unfold g3_dens. auto_derive; [exact Logic.I|]. field.
  - intros x _. apply edc. unfold g3_dens. auto_derive. exact Logic.I.
Qed.
Lemma g3_dens_pos x : 0 < x -> 0 <= g3_dens x. Proof. intros H. unfold g3_dens. pose proof (exp_pos (- x)). assert (0 < x * x) by nra. nra. Qed.
Lemma g3_dens_c x : continuous g3_dens x. Proof. unfold g3_dens. apply edc. auto_derive. exact Logic.I. Qed.
Lemma g3_lim : is_lim G3 p_infty 1.
Proof.
  assert (L : is_lim (fun s => 1 - (1 * (s ^ 0 * exp (- s)) + 1 * (s ^ 1 * exp (- s)) + 1 / 2 * (s ^ 2 * exp (- s)))) p_infty (1 - (0 + 0 + 0))).
  { apply is_lim_minus'; [apply is_lim_const|]. apply is_lim_plus'; [apply is_lim_plus'|]; apply pexp0; lra. }
  replace (1 - (0 + 0 + 0)) with 1 in L by ring. eapply is_lim_ext; [|exact L]. intros s. unfold G3. cbn. field.
Qed.
(** ** the same plus a Maxwell energy *)
Definition y5 (l : list R) : R := match l with [a; b; c; d; e; f] => g3 [a; b; c] + mx [d; e; f] | _ => 0 end.
Definition F9 (s : R) : R := MX s - 2 / sqrt PI * exp (- s) * (sqrt s * s * (2 / 3 + 4 / 15 * s + 8 / 105 * (s * s))).
Definition f9 (s : R) : R := 16 / (105 * sqrt PI) * (s * s * s * sqrt s * exp (- s)).
Lemma MX_0 : MX 0 = 0. Proof. unfold MX. rewrite sqrt_0, erf_0. ring. Qed.
Lemma MX_c x : continuous MX x.
Proof.
  unfold MX. apply (c_minus (fun s => Rerf (sqrt s)) (fun s => 2 / sqrt PI * (sqrt s * exp (- s)))); [apply c_erf, continuous_sqrt|]. exact (mx_dens_c x).
Qed.
Lemma MX_d x : 0 < x -> is_derive MX x (mx_dens x).
Proof.
  intros Hx. apply (@is_derive_RInt R_NormedModule mx_dens MX 0 x); [|apply mx_dens_c]. exists (mkposreal x Hx). intros y Hy. change (Rabs (y - x) < x) in Hy. apply Rabs_lt_between in Hy. apply mx_dens_int. lra.
Qed.
Lemma ud6 l : unit_draws 6 l -> exists a b c d e f, l = [a; b; c; d; e; f] /\ 0 < a < 1 /\ 0 < b < 1 /\ 0 < c < 1 /\ 0 < d < 1 /\ 0 < e < 1 /\ 0 < f < 1.
Proof.
  intros [L F]. destruct l as [|a [|b [|c [|d [|e [|f [|]]]]]]]; try discriminate. exists a, b, c, d, e, f. split; [reflexivity|].
  inversion F as [|? ? A F1]. inversion F1 as [|? ? B F2]. inversion F2 as [|? ? C F3]. inversion F3 as [|? ? D F4]. inversion F4 as [|? ? E F5]. inversion F5 as [|? ? G F6]. tauto.
Qed.
Lemma y5_pos l : unit_draws 6 l -> 0 < y5 l.
Proof.
  intros H. destruct (ud6 l H) as (a & b & c & d & e & f & -> & A & B & C & D & E & F). cbn [y5]. pose proof (g3_pos [a; b; c]) as P. pose proof (mx_pos [d; e; f]) as Q.
  assert (unit_draws 3 [a; b; c]) by (split; [reflexivity|repeat constructor; lra]). assert (unit_draws 3 [d; e; f]) by (split; [reflexivity|repeat constructor; lra]). specialize (P H0). specialize (Q H1). lra.
Qed.
Definition E9 (s w : R) (l : list R) : Prop := w + mx l <= s.
Definition H9 (s w : R) : R := MX (Rmax (s - w) 0).
Lemma H9_c s x : continuity_pt (H9 s) x.
Proof.
  apply continuity_pt_filterlim. apply (c_comp MX (fun w => Rmax (s - w) 0)); [|apply MX_c].
  apply (c_comp (fun t => Rmax t 0) (fun w => s - w)); [apply edc; auto_derive; exact Logic.I|apply c_max].
Qed.
Lemma H9_prob s w : 0 < w -> prob 3 (E9 s w) (H9 s w).
Proof.
  intros Hw. unfold H9. destruct (Rle_dec w s) as [L|L].
  - rewrite Rmax_left by lra. eapply prob_ext; [|apply mx_prob; lra]. intros l Hl. unfold E9. lra.
  - rewrite Rmax_right, MX_0 by lra. apply prob_never. intros l Hl. unfold E9. pose proof (mx_pos l Hl). lra.
Qed.
Lemma y5_part s : 0 < s -> iR (fun w => MX (s - w) * g3_dens w) 0 s (F9 s).
Proof.
  intros Hs. pose proof sqrtpi as SP.
  pose (A := fun w => - MX (s - w) * ((w * w / 2 + w + 1) * exp (- w)) + 2 / sqrt PI * exp (- s) * (sqrt (s - w) * ((s - w) * ((s * s / 2 + s + 1) * (2 / 3) - (s + 1) * (2 / 5) * (s - w) + (s - w) * (s - w) / 7)))).
  assert (Cm : forall x, continuous (fun w => MX (s - w)) x) by (intros x; apply (c_comp MX (fun w => s - w)); [apply edc; auto_derive; exact Logic.I|apply MX_c]).
  assert (Cs : forall x, continuous (fun w => sqrt (s - w)) x) by (intros x; apply (c_comp sqrt (fun w => s - w)); [apply edc; auto_derive; exact Logic.I|apply continuous_sqrt]).
  eapply iR_eq; [|apply (FTC_open A (fun w => MX (s - w) * g3_dens w) 0 s Hs)].
  - unfold A, F9. rewrite Rminus_eq_0, MX_0, Rminus_0_r, sqrt_0, Ropp_0, exp_0. match goal with |- ?a = ?b => change (@eq R a b) end. field. lra.
  - intros w Hw. unfold A. set (v := s - w). assert (Pv : 0 < v) by (unfold v; lra). set (r := sqrt v). assert (Pr : 0 < r) by (apply sqrt_lt_R0; exact Pv). assert (RR : r * r = v) by (apply sqrt_sqrt; lra).
    assert (D0 : is_derive (fun w => s - w) w (- (1))) by (auto_derive; [exact Logic.I|ring]).
    assert (D1 : is_derive (fun w => MX (s - w)) w (- (1) * mx_dens v)) by (apply (dR_comp MX (fun w => s - w)); [exact (MX_d v Pv)|exact D0]).
    assert (D2 : is_derive (fun w => sqrt (s - w)) w (- (1) / (2 * r))) by (apply (dR_sqrt (fun w => s - w)); [exact D0|exact Pv]).
    assert (D3 : is_derive (fun w => (w * w / 2 + w + 1) * exp (- w)) w (- (w * w / 2) * exp (- w))) by (auto_derive; [exact Logic.I|field]).
    assert (D4 : is_derive (fun w => (s - w) * ((s * s / 2 + s + 1) * (2 / 3) - (s + 1) * (2 / 5) * (s - w) + (s - w) * (s - w) / 7)) w (- ((s * s / 2 + s + 1) * (2 / 3) - (s + 1) * (4 / 5) * v + v * v * 3 / 7))) by (auto_derive; [exact Logic.I|unfold v; field]).
    pose proof (dR_mult _ _ w _ _ D1 D3) as M1. pose proof (dR_mult _ _ w _ _ D2 D4) as M2. cbv beta in M1, M2. fold v in M1, M2. fold r in M2.
    pose proof (is_derive_scal _ w (2 / sqrt PI * exp (- s)) _ M2) as M3. pose proof (dR_minus _ _ w _ _ M3 M1) as M4. cbv beta in M4.
    eapply is_derive_ext; [|eapply dR_val; [|exact M4]].
    + intros t. cbv beta. match goal with |- ?a = ?b => change (@eq R a b) end. ring.
    + unfold mx_dens, g3_dens. fold r. assert (Ew : exp (- v) * exp (- w) = exp (- s)) by (rewrite <- exp_plus; f_equal; unfold v; ring). assert (Ws : w = s - r * r) by (rewrite RR; unfold v; ring). rewrite <- Ew. clearbody r. rewrite <- RR. rewrite Ws. set (X := exp (- (s - r * r))). set (Y := exp (- (r * r))). set (Z := MX (r * r)). field. lra.
  - intros x. apply c_mult; [apply Cm|apply g3_dens_c].
  - intros x. unfold A. apply (c_plus (fun w => - MX (s - w) * ((w * w / 2 + w + 1) * exp (- w)))).
    + apply (c_mult (fun w => - MX (s - w))); [apply (c_comp (fun t => - t) (fun w => MX (s - w))); [apply Cm|apply edc; auto_derive; exact Logic.I]|apply edc; auto_derive; exact Logic.I].
    + apply (c_mult (fun _ => 2 / sqrt PI * exp (- s))); [apply c_const|]. apply (c_mult (fun w => sqrt (s - w))); [apply Cs|apply edc; auto_derive; exact Logic.I].
Qed.
Lemma y5_prob s : 0 <= s -> prob 6 (fun l => y5 l <= s) (F9 s).
Proof.
  intros [Hs| <-]; [|unfold F9; rewrite MX_0, sqrt_0; eapply prob_val; [|apply prob_never]; [ring|intros l Hl; pose proof (y5_pos l Hl); lra]].
  pose proof (after_below 3 3 g3 g3_dens G3 (H9 s) 0 (E9 s) (fun w l => Rle_dec (w + mx l) s) g3_pos g3_prob (fun s _ => g3_dens_int s) g3_dens_pos (fun x _ => g3_dens_c x) (H9_prob s) (fun x _ => H9_c s x) s Hs) as P.
  eapply prob_val; [|eapply prob_ext; [|exact P]].
  - unfold part. apply (@is_RInt_unique R_CompleteNormedModule). apply (iR_ext (fun w => MX (s - w) * g3_dens w)); [lra| |apply y5_part; exact Hs].
    intros w Hw. unfold H9. rewrite Rmax_left by lra. reflexivity.
  - intros l Hl. cbn [Nat.add] in Hl. destruct (ud6 l Hl) as (a & b & c & d & e & f & -> & A & B & C & D & E & F). cbn [firstn skipn y5]. unfold E9. assert (U : unit_draws 3 [d; e; f]) by (split; [reflexivity|repeat constructor; lra]). pose proof (mx_pos _ U). split; [intros [_ X]; exact X|intros X; split; lra].
Qed.
Lemma f9_c x : continuous f9 x.
Proof.
  unfold f9. apply (c_mult (fun _ => 16 / (105 * sqrt PI))); [apply c_const|]. apply (c_mult (fun s => s * s * s * sqrt s)); [apply (c_mult (fun s => s * s * s)); [apply edc; auto_derive; exact Logic.I|apply continuous_sqrt]|apply edc; auto_derive; exact Logic.I].
Qed.
Lemma f9_int s : 0 <= s -> iR f9 0 s (F9 s).
Proof.
  intros [Hs| <-]; [|eapply iR_eq; [|exact (@is_RInt_point R_NormedModule f9 0)]; unfold F9; rewrite MX_0, sqrt_0; change zero with 0; ring].
  pose proof sqrtpi as SP. eapply iR_eq; [|apply (FTC_open F9 f9 0 s Hs)].
  - assert (F9 0 = 0) as -> by (unfold F9; rewrite MX_0, sqrt_0; ring). apply Rminus_0_r.
  - intros x Hx. set (r := sqrt x). assert (Pr : 0 < r) by (apply sqrt_lt_R0; lra). assert (RR : r * r = x) by (apply sqrt_sqrt; lra).
    assert (D2 : is_derive sqrt x (1 / (2 * r))) by (apply (dR_sqrt (fun x => x)); [apply (is_derive_id x)|lra]).
    assert (D4 : is_derive (fun s => s * (2 / 3 + 4 / 15 * s + 8 / 105 * (s * s)) * exp (- s)) x ((2 / 3 + 8 / 15 * x + 24 / 105 * (x * x) - x * (2 / 3 + 4 / 15 * x + 8 / 105 * (x * x))) * exp (- x))) by (auto_derive; [exact Logic.I|field]).
    pose proof (dR_mult _ _ x _ _ D2 D4) as M1. pose proof (is_derive_scal _ x (2 / sqrt PI) _ M1) as M2. pose proof (dR_minus _ _ x _ _ (MX_d x ltac:(lra)) M2) as M3. cbv beta in M3. fold r in M3.
    eapply is_derive_ext; [|eapply dR_val; [|exact M3]].
    + intros t. unfold F9. cbv beta. match goal with |- ?a = ?b => change (@eq R a b) end. ring.
    + unfold mx_dens, f9. fold r. rewrite <- RR. set (X := exp (- (r * r))). field. lra.
  - apply f9_c.
  - intros x. unfold F9. apply (c_minus MX); [apply MX_c|]. apply (c_mult (fun s => 2 / sqrt PI * exp (- s))); [apply edc; auto_derive; exact Logic.I|]. apply (c_mult (fun s => sqrt s * s)); [apply (c_mult sqrt); [apply continuous_sqrt|apply c_id]|apply edc; auto_derive; exact Logic.I].
Qed.
Lemma f9_pos x : 0 < x -> 0 <= f9 x.
Proof. intros H. unfold f9. pose proof (exp_pos (- x)). pose proof (sqrt_pos x). pose proof sqrtpi. assert (0 < 16 / (105 * sqrt PI)) by (apply Rdiv_lt_0_compat; lra). assert (0 < x * x * x) by (apply Rmult_lt_0_compat; nra). apply Rmult_le_pos; [lra|]. apply Rmult_le_pos; [|lra]. apply Rmult_le_pos; lra. Qed.
Lemma F9_lim : is_lim F9 p_infty 1.
Proof.
  pose proof sqrtpi as SP. assert (I0 : 0 < 2 / sqrt PI) by (apply Rdiv_lt_0_compat; lra).
  assert (Z : is_lim (fun s => 2 / sqrt PI * exp (- s) * (sqrt s * s * (2 / 3 + 4 / 15 * s + 8 / 105 * (s * s)))) p_infty 0).
  { apply (is_lim_le_le_loc (fun _ => 0) (fun s => 2 * (2 / sqrt PI) * (s ^ 4 * exp (- s)))).
    - exists 1. intros s Hs. pose proof (exp_pos (- s)) as Ep. pose proof (sqrt_pos s) as Q. assert (S1 : sqrt s <= s) by (rewrite <- (sqrt_square s) at 2 by lra; apply sqrt_le_1_alt; nra).
      assert (P1 : 0 <= sqrt s * s) by nra. assert (P2 : sqrt s * s <= s * s) by nra. set (p := 2 / 3 + 4 / 15 * s + 8 / 105 * (s * s)). assert (P3 : 0 <= p) by (unfold p; nra). assert (P4 : p <= 2 * (s * s)) by (unfold p; nra).
      assert (P5 : sqrt s * s * p <= s * s * (2 * (s * s))) by (apply Rmult_le_compat; assumption). split; [apply Rmult_le_pos; [nra|apply Rmult_le_pos; assumption]|].
      replace (2 * (2 / sqrt PI) * (s ^ 4 * exp (- s))) with (2 / sqrt PI * exp (- s) * (s * s * (2 * (s * s)))) by (cbn; ring). apply Rmult_le_compat_l; [nra|exact P5].
    - apply is_lim_const.
    - apply pexp0. lra. }
  pose proof (is_lim_minus' _ _ _ _ _ mx_lim Z) as L. rewrite Rminus_0_r in L. exact L.
Qed.
