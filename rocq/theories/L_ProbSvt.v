(** * The law of the target velocity of the sampling-of-the-velocity-of-the-target algorithm *)
From Coq Require Import Reals Lra Lia List Arith ZifyBool ZifyNat. From Coquelicot Require Import Coquelicot.
From Verif Require Import Base NumR M_Kin S_Kin S_Doppler L_Search L_Legendre L_Interp2 L_Spectra L_Spectra2 L_Doppler S_Prob L_Prob L_ProbEv L_Prob2 L_Gauss L_ProbMw L_ProbLaw L_ProbLoop. Import ListNotations.
Local Open Scope R_scope.
Local Notation iR := (@is_RInt R_NormedModule).

(** ** the order of two integrals of a function decreasing in the inner variable *)
Section SwapDec.
  Variables (u : R -> R -> R) (U : R -> R) (I : R).
  Hypothesis B : forall a b, 0 < a < 1 -> 0 < b < 1 -> 0 <= u a b <= 1.
  Hypothesis D : forall a b b', 0 < a < 1 -> 0 < b -> b <= b' -> b' < 1 -> u a b' <= u a b.
  Hypothesis X : forall a, 0 < a < 1 -> ex_RInt (u a) 0 1.
  Hypothesis Y : forall b, 0 < b < 1 -> iR (fun a => u a b) 0 1 (U b).
  Hypothesis HI : iR U 0 1 I.
  Lemma U_bounds b : 0 < b < 1 -> 0 <= U b <= 1.
  Proof.
    intros Hb. pose proof (iR_const_on (fun _ => 0) 0 1 0 ltac:(lra) ltac:(reflexivity)) as C1. pose proof (iR_const_on (fun _ => 1) 0 1 1 ltac:(lra) ltac:(reflexivity)) as C2.
    assert ((1 - 0) * 0 <= U b) by (apply (is_RInt_le (fun _ => 0) (fun a => u a b) 0 1); [lra|exact C1|exact (Y b Hb)|intros x Hx; apply B; lra]).
    assert (U b <= (1 - 0) * 1) by (apply (is_RInt_le (fun a => u a b) (fun _ => 1) 0 1); [lra|exact (Y b Hb)|exact C2|intros x Hx; apply B; lra]). lra.
  Qed.
  Lemma U_dec b b' : 0 < b -> b <= b' -> b' < 1 -> U b' <= U b.
  Proof. intros H1 H2 H3. apply (is_RInt_le (fun a => u a b') (fun a => u a b) 0 1); [lra|apply Y; lra|apply Y; lra|intros x Hx; apply D; lra]. Qed.
  Lemma sm_swap N n : (n <= N)%nat -> iR (fun a => sm (u a) N n) 0 1 (sm U N n).
  Proof.
    induction n as [|n IH]; intros L; cbn [sm].
    - eapply iR_eq; [|apply (iR_const_on (fun _ => 0) 0 1 0); [lra|reflexivity]]. ring.
    - apply (@is_RInt_plus R_NormedModule (fun a => sm (u a) N n)); [apply IH; lia|]. apply Y. assert (0 < INR (S N)) by (apply lt_0_INR; lia). split; [apply Rdiv_lt_0_compat; [apply lt_0_INR; lia|lra]|apply Rlt_div_l; [lra|]]. rewrite Rmult_1_l. apply lt_INR. lia.
  Qed.
  Lemma swap_dec : exists H : R -> R, (forall a, 0 < a < 1 -> iR (u a) 0 1 (H a)) /\ iR H 0 1 I.
  Proof.
    exists (fun a => RInt (u a) 0 1). assert (HX : forall a, 0 < a < 1 -> iR (u a) 0 1 (RInt (u a) 0 1)) by (intros a Ha; apply (@RInt_correct R_CompleteNormedModule); apply X; exact Ha). split; [exact HX|].
    destruct (iR_lim (fun N a => sm (u a) N N / INR (S N)) (fun N => sm U N N / INR (S N)) (fun a => RInt (u a) 0 1)) as (J & L & XJ).
    - intros k. apply (iR_ext (fun a => / INR (S k) * sm (u a) k k)); [lra|intros x Hx; unfold Rdiv; ring|]. eapply iR_eq; [|apply (@is_RInt_scal R_NormedModule); apply (sm_swap k k (le_n _))]. change (/ INR (S k) * sm U k k = sm U k k / INR (S k)). unfold Rdiv. ring.
    - intros k a Ha. apply (sm_I (u a) (RInt (u a) 0 1)); [intros x Hx; apply B; assumption|intros x y H1 H2 H3; apply D; assumption|apply HX; exact Ha].
    - replace I with J; [exact XJ|]. assert (L' : is_lim_seq (fun N => sm U N N / INR (S N)) I).
      { apply is_lim_seq_spec. intros eps. destruct (inv_small eps (cond_pos eps)) as (N & HN). exists N. intros k Lk. apply Rle_lt_trans with (/ INR (S k)); [|apply HN; exact Lk]. apply (sm_I U I U_bounds U_dec HI). }
      apply is_lim_seq_unique in L. apply is_lim_seq_unique in L'. congruence.
  Qed.
End SwapDec.

(** ** -ln(a b): two exponential variables *)
Definition g2 (l : list R) : R := match l with [a; b] => - ln (a * b) | _ => 0 end.
Definition g2_dens (w : R) : R := w * exp (- w).
(** ** -ln b - ln d cos^2(pi a/2), with the numbers in the order of the code *)
Definition m3 (l : list R) : R := match l with [a; b; d] => - ln b - ln d * cos (PI / 2 * a) * cos (PI / 2 * a) | _ => 0 end.
Lemma m3_mx a b d : m3 [a; b; d] = mx [b; d; a].
Proof. cbn. replace (PI / 2 * a) with (PI * a / 2) by field. ring. Qed.
Lemma g2_pos l : unit_draws 2 l -> 0 < g2 l.
Proof.
  intros [L F]. destruct l as [|a [|b [|]]]; try discriminate. inversion F as [|? ? H1 F1]; subst. inversion F1 as [|? ? H2 _]; subst. cbn. assert (ln (a * b) < ln 1) by (apply ln_increasing; nra). rewrite ln_1 in *. lra.
Qed.
Lemma g2_le s a b : 0 < a < 1 -> 0 < b < 1 -> g2 [a; b] <= s <-> exp (- s) / a <= b.
Proof.
  intros Ha Hb. cbn. assert (P : 0 < a * b) by nra. transitivity (exp (- s) <= a * b).
  - split; intros H.
    + rewrite <- (exp_ln (a * b)) by exact P. apply exp_le. lra.
    + apply ln_le in H; [|apply exp_pos]. rewrite ln_exp in H. lra.
  - split; intros H; [apply Rle_div_l; lra|apply Rle_div_l in H; lra].
Qed.
Lemma g2_prob s : 0 <= s -> prob 2 (fun l => g2 l <= s) (1 - exp (- s) - s * exp (- s)).
Proof.
  intros Hs. set (e := exp (- s)). pose proof (exp_pos (- s)) as Pe. fold e in Pe. assert (E1 : e <= 1) by (apply exp_le1; exact Hs).
  exists (fun l => if Rle_dec (g2 l) s then 1 else 0). split; [intros l Hl; destruct (Rle_dec (g2 l) s); [left|right]; split; auto|].
  exists (fun a => if Rle_dec e a then 1 - e / a else 0). split.
  - intros a Ha. exists (fun b => if Rle_dec (g2 [a; b]) s then 1 else 0). split; [intros; reflexivity|]. destruct (Rle_dec e a) as [L|L].
    + assert (C : 0 <= e / a <= 1) by (split; [left; apply Rdiv_lt_0_compat; lra|apply Rle_div_l; lra]). eapply iR_eq; [|apply (iR_step _ (e / a) 0 1 C)]; [ring| |]; intros b Hb; pose proof (g2_le s a b Ha ltac:(lra)) as K; fold e in K; destruct (Rle_dec (g2 [a; b]) s) as [Q|Q]; try reflexivity; exfalso; [apply K in Q; lra|apply Q; apply K; lra].
    + eapply iR_eq; [|apply (iR_const_on _ 0 1 0); [lra|]]; [ring|]. intros b Hb. pose proof (g2_le s a b Ha ltac:(lra)) as K. fold e in K. destruct (Rle_dec (g2 [a; b]) s) as [X|]; [|reflexivity]. exfalso. apply K in X. assert (1 < e / a) by (apply Rlt_div_r; lra). lra.
  - eapply iR_eq; [|eapply (iR_chasles _ 0 e 1)].
    2:{ apply (iR_const_on _ 0 e 0); [lra|]. intros x Hx. destruct (Rle_dec e x); [lra|reflexivity]. }
    2:{ apply (iR_ext (fun a => 1 - e / a)); [lra| |].
        - intros x Hx. destruct (Rle_dec e x); [reflexivity|lra].
        - apply (@is_RInt_derive R_CompleteNormedModule (fun x => x - e * ln x)).
          + rewrite Rmin_left, Rmax_right by lra. intros x Hx. auto_derive; [lra|]. field. lra.
          + rewrite Rmin_left, Rmax_right by lra. intros x Hx. apply (ex_derive_continuous (V := R_NormedModule)). auto_derive. lra. }
    unfold minus, plus, opp. cbn. rewrite ln_1. replace (ln e) with (- s) by (unfold e; rewrite ln_exp; reflexivity). ring.
Qed.
Lemma g2_dens_int s : iR g2_dens 0 s (1 - exp (- s) - s * exp (- s)).
Proof.
  eapply iR_eq; [|apply (@is_RInt_derive R_CompleteNormedModule (fun w => - (1 + w) * exp (- w)) g2_dens)].
  - unfold minus, plus, opp. cbn. rewrite Ropp_0, exp_0. ring.
  - intros x _. unfold g2_dens. auto_derive; [exact Logic.I|]. ring.
  - intros x _. apply (ex_derive_continuous (V := R_NormedModule)). unfold g2_dens. auto_derive. exact Logic.I.
Qed.
Lemma qt_tau t t' a : 0 < a < 1 -> t <= t' -> qt t' a <= qt t a.
Proof. intros Ha H. unfold qt. apply exp_le. apply Ropp_le_contravar. pose proof (cos_q a ltac:(lra)) as C. unfold Rdiv. apply Rmult_le_compat_r; [|exact H]. left. apply Rinv_0_lt_compat. nra. Qed.
Lemma qt_0 a : qt 0 a = 1. Proof. unfold qt, Rdiv. rewrite Rmult_0_l, Ropp_0. apply exp_0. Qed.
Lemma m3_expect s : 0 <= s -> expect 3 (fun l => if Rle_dec (m3 l) s then 1 else 0) (MX s).
Proof.
  intros Hs. pose (u := fun a b => qt (Rmax (s + ln b) 0) a). pose (U := fun b => if Rlt_dec 0 (s + ln b) then 1 - Rerf (sqrt (s + ln b)) else 1).
  set (e := exp (- s)). pose proof (exp_pos (- s)) as Pe. fold e in Pe. assert (E1 : e <= 1) by (apply exp_le1; exact Hs). assert (Le : ln e = - s) by (unfold e; apply ln_exp).
  destruct (swap_dec u U (1 - MX s)) as (H & H1 & H2).
  - intros a b Ha Hb. apply qt_bounds. apply Rmax_r.
  - intros a b b' Ha H0 H1 H2. unfold u. apply qt_tau; [exact Ha|]. assert (ln b <= ln b') by (apply ln_le; lra). unfold Rmax. destruct (Rle_dec (s + ln b) 0), (Rle_dec (s + ln b') 0); lra.
  - intros a Ha. apply (@ex_RInt_Chasles R_CompleteNormedModule (u a) 0 e 1).
    + exists ((e - 0) * 1). apply iR_const_on; [lra|]. intros x Hx. unfold u. rewrite Rmax_right; [apply qt_0|]. assert (ln x < ln e) by (apply ln_increasing; lra). lra.
    + apply (@ex_RInt_continuous R_CompleteNormedModule). intros b Hb. rewrite Rmin_left, Rmax_right in Hb by lra. unfold u, qt. pose proof (cos_q a ltac:(lra)) as C. apply (c_comp exp (fun b => - (Rmax (s + ln b) 0 / (cos (PI * a / 2) * cos (PI * a / 2))))); [|apply edc; auto_derive; exact Logic.I].
      apply (c_comp (fun r => - (r / (cos (PI * a / 2) * cos (PI * a / 2)))) (fun b => Rmax (s + ln b) 0)); [|apply edc; auto_derive; nra]. apply (c_comp (fun r => Rmax r 0) (fun b => s + ln b)); [|apply c_max]. apply edc. auto_derive. lra.
  - intros b Hb. unfold u, U. destruct (Rlt_dec 0 (s + ln b)) as [T|T].
    + rewrite Rmax_left by lra. pose proof (qt_int (sqrt (s + ln b)) (sqrt_lt_R0 _ T)) as Q. rewrite sqrt_sqrt in Q by lra. exact Q.
    + rewrite Rmax_right by lra. eapply iR_eq; [|apply (iR_const_on _ 0 1 1); [lra|]]; [ring|]. intros x _. apply qt_0.
  - pose proof (mx_outer s Hs) as O. pose proof (iR_const_on (fun _ => 1) 0 1 1 ltac:(lra) ltac:(reflexivity)) as C. pose proof (@is_RInt_minus R_NormedModule _ _ _ _ _ _ C O) as Q. apply (iR_ext _ U) in Q; [|lra|].
    + eapply iR_eq; [|exact Q]. change ((1 - 0) * 1 - MX s = 1 - MX s). ring.
    + intros x Hx. unfold U. destruct (Rlt_dec 0 (s + ln x)); [reflexivity|]. change (1 - 0 = 1). ring.
  - exists (fun a => 1 - H a). split.
    + intros a Ha. exists (fun b => 1 - u a b). split.
      * intros b Hb. exists (fun d => if Rle_dec (m3 [a; b; d]) s then 1 else 0). split; [intros; reflexivity|]. assert (C : 0 <= u a b <= 1) by (apply qt_bounds; apply Rmax_r). eapply iR_eq; [|apply (iR_step _ (u a b) 0 1 C)]; [ring| |]; intros d Hd; rewrite m3_mx; pose proof (mx_event s b d a Hb ltac:(lra) Ha) as K; pose proof (qt_tau (s + ln b) (Rmax (s + ln b) 0) a Ha (Rmax_l _ _)) as Q; fold (u a b) in Q.
        -- destruct (Rle_dec (mx [b; d; a]) s) as [X|]; [|reflexivity]. apply K in X. lra.
        -- destruct (Rle_dec (mx [b; d; a]) s) as [X|X]; [reflexivity|]. exfalso. apply X. apply K. unfold u in Hd. unfold Rmax in Hd. destruct (Rle_dec (s + ln b) 0); [rewrite qt_0 in Hd; lra|lra].
      * pose proof (iR_const_on (fun _ => 1) 0 1 1 ltac:(lra) ltac:(reflexivity)) as C. pose proof (@is_RInt_minus R_NormedModule _ _ _ _ _ _ C (H1 a Ha)) as Q. eapply iR_eq; [|exact Q]. change ((1 - 0) * 1 - H a = 1 - H a). ring.
    + pose proof (iR_const_on (fun _ => 1) 0 1 1 ltac:(lra) ltac:(reflexivity)) as C. pose proof (@is_RInt_minus R_NormedModule _ _ _ _ _ _ C H2) as Q. eapply iR_eq; [|exact Q]. change ((1 - 0) * 1 - (1 - MX s) = MX s). ring.
Qed.
Lemma m3_prob s : 0 <= s -> prob 3 (fun l => m3 l <= s) (MX s).
Proof. intros Hs. exists (fun l => if Rle_dec (m3 l) s then 1 else 0). split; [|apply m3_expect; exact Hs]. intros l _. destruct (Rle_dec (m3 l) s); [left|right]; auto. Qed.
Lemma m3_pos l : unit_draws 3 l -> 0 < m3 l.
Proof. intros H. apply ud3 in H as (a & b & d & -> & Ha & Hb & Hd). rewrite m3_mx. apply mx_pos. split; [reflexivity|]. repeat constructor; lra. Qed.
