(** * The law of -(ln x1 + ln x2 cos^2(pi x3/2)), and of Maxwellian::sample_energy *)
From Coq Require Import Reals Lra Lia List Arith. From Coquelicot Require Import Coquelicot.
From Verif Require Import Base NumR M_Spectra L_Search L_Legendre L_Spectra L_Spectra2 S_Prob L_Prob L_ProbEv L_Prob2 L_Gauss. Import ListNotations.
Local Open Scope R_scope.
Local Notation iR := (@is_RInt R_NormedModule).

Definition mx (l : list R) : R := match l with [x1; x2; x3] => let c := cos (PI * x3 / 2) in - (ln x1 + ln x2 * c * c) | _ => 0 end.
Definition MX (s : R) : R := Rerf (sqrt s) - 2 / sqrt PI * (sqrt s * exp (- s)).
Definition mx_dens (v : R) : R := 2 / sqrt PI * (sqrt v * exp (- v)).

Lemma ud3 l : unit_draws 3 l -> exists x y z, l = [x; y; z] /\ 0 < x < 1 /\ 0 < y < 1 /\ 0 < z < 1.
Proof. intros [L F]. destruct l as [|x [|y [|z [|]]]]; try discriminate. inversion F as [|? ? A F1]; subst. inversion F1 as [|? ? B F2]; subst. inversion F2 as [|? ? C _]; subst. exists x, y, z. tauto. Qed.
Lemma ln_neg01 x : 0 < x < 1 -> ln x < 0. Proof. intros H. rewrite <- ln_1. apply ln_increasing; lra. Qed.
Lemma mx_pos l : unit_draws 3 l -> 0 < mx l.
Proof.
  intros H. apply ud3 in H as (x & y & z & -> & Hx & Hy & Hz). cbn. pose proof (ln_neg01 x Hx). pose proof (ln_neg01 y Hy). set (c := cos (PI * z / 2)). assert (0 <= c * c) by nra. nra.
Qed.
Lemma qt_dec tau x y : 0 <= tau -> 0 < x -> x <= y -> y < 1 -> qt tau y <= qt tau x.
Proof.
  intros Ht Hx Hxy Hy. unfold qt. apply exp_le. apply Ropp_le_contravar. pose proof (cos_q x ltac:(lra)) as Cx. pose proof (cos_q y ltac:(lra)) as Cy. pose proof PI_RGT_0 as P.
  assert (C : cos (PI * y / 2) <= cos (PI * x / 2)) by (apply cos_decr_1; nra). unfold Rdiv. apply Rmult_le_compat_l; [exact Ht|]. apply Rinv_le_contravar; nra.
Qed.
(** the event for a given first number *)
Lemma mx_event s x1 x2 x3 : 0 < x1 < 1 -> 0 < x2 < 1 -> 0 < x3 < 1 -> mx [x1; x2; x3] <= s <-> qt (s + ln x1) x3 <= x2.
Proof.
  intros H1 H2 H3. cbn. unfold qt. pose proof (cos_q x3 ltac:(lra)) as C. set (c := cos (PI * x3 / 2)) in *. set (tau := s + ln x1). assert (CC : 0 < c * c) by nra.
  transitivity (- (tau / (c * c)) <= ln x2).
  - split; intros H.
    + assert (X : - ln x2 <= tau / (c * c)) by (apply Rle_div_r; [exact CC|unfold tau; nra]). lra.
    + assert (X : - ln x2 <= tau / (c * c)) by lra. apply Rle_div_r in X; [|exact CC]. unfold tau in X. nra.
  - split; intros H.
    + rewrite <- (exp_ln x2) by lra. apply exp_le. exact H.
    + rewrite <- (ln_exp (- (tau / (c * c)))). apply ln_le; [apply exp_pos|exact H].
Qed.
Lemma mx_inner s x1 : 0 < x1 < 1 -> expect 2 (fun l => if Rle_dec (mx (x1 :: l)) s then 1 else 0) (if Rlt_dec 0 (s + ln x1) then Rerf (sqrt (s + ln x1)) else 0).
Proof.
  intros H1. destruct (Rlt_dec 0 (s + ln x1)) as [T|T].
  - set (tau := s + ln x1) in *. pose proof (sqrt_lt_R0 _ T) as SP. pose proof (sqrt_sqrt tau ltac:(lra)) as SS. pose proof (qt_int (sqrt tau) SP) as Q. rewrite SS in Q.
    destruct (swap_prob (qt tau) (1 - Rerf (sqrt tau)) (fun x _ => qt_bounds tau x ltac:(lra)) (fun x y A B C => qt_dec tau x y ltac:(lra) A B C) Q) as (f & Hf & E).
    replace (1 - (1 - Rerf (sqrt tau))) with (Rerf (sqrt tau)) in E by ring. apply (expect_ext 2 f); [|exact E]. intros l Hl. pose proof (Hf l Hl) as K. destruct Hl as [L F]. destruct l as [|x2 [|x3 [|]]]; try discriminate. inversion F as [|? ? H2 F2]; subst. inversion F2 as [|? ? H3 _]; subst.
    pose proof (mx_event s x1 x2 x3 H1 H2 H3) as EV. fold tau in EV. destruct (Rle_dec (mx [x1; x2; x3]) s); destruct K as [[a ->]|[a ->]]; try reflexivity; tauto.
  - apply (expect_ext 2 (fun _ => 0)); [|apply expect_const]. intros l [L F]. destruct l as [|x2 [|x3 [|]]]; try discriminate. inversion F as [|? ? H2 F2]; subst. inversion F2 as [|? ? H3 _]; subst. destruct (Rle_dec (mx [x1; x2; x3]) s) as [X|]; [exfalso|reflexivity].
    cbn in X. pose proof (ln_neg01 x2 H2). pose proof (cos_q x3 ltac:(lra)) as C. set (c := cos (PI * x3 / 2)) in *. assert (0 < c * c) by nra. nra.
Qed.
Lemma c_ln (f : R -> R) x : 0 < f x -> continuous f x -> continuous (fun y => ln (f y)) x.
Proof. intros P H. apply (c_comp ln f); [exact H|]. apply edc. exists (/ f x). apply is_derive_ln. exact P. Qed.
Lemma c_max (a x : R) : continuous (fun y => Rmax y a) x.
Proof.
  apply (continuous_ext (fun y => (y + a + Rabs (y - a)) / 2)).
  - intros y. change ((y + a + Rabs (y - a)) / 2 = Rmax y a). unfold Rmax, Rabs. destruct (Rle_dec y a), (Rcase_abs (y - a)); lra.
  - apply c_div. apply (c_plus (fun y => y + a) (fun y => Rabs (y - a))); [cont|]. apply (c_comp Rabs (fun y => y - a)); [cont|]. apply continuous_Rabs.
Qed.
Lemma mx_outer s : 0 <= s -> iR (fun x1 => if Rlt_dec 0 (s + ln x1) then Rerf (sqrt (s + ln x1)) else 0) 0 1 (MX s).
Proof.
  intros Hs. set (a := exp (- s)). pose proof (exp_pos (- s)) as Pa. fold a in Pa. assert (La : ln a = - s) by (unfold a; apply ln_exp). assert (A1 : a <= 1) by (apply exp_le1; exact Hs).
  assert (Low : iR (fun x1 => if Rlt_dec 0 (s + ln x1) then Rerf (sqrt (s + ln x1)) else 0) 0 a ((a - 0) * 0)).
  { apply iR_const_on; [lra|]. intros x Hx. destruct (Rlt_dec 0 (s + ln x)) as [X|]; [exfalso|reflexivity]. assert (ln x < ln a) by (apply ln_increasing; lra). lra. }
  destruct Hs as [Ps| <-].
  2:{ unfold MX. rewrite sqrt_0, erf_0, Rmult_0_l, Rmult_0_r, Rminus_0_r. assert (a = 1) as -> by (unfold a; rewrite Ropp_0; apply exp_0). eapply iR_eq; [|exact Low]. ring. }
  assert (A2 : a < 1) by (unfold a; rewrite <- exp_0; apply exp_increasing; lra). pose proof sqrtpi as SP.
  pose (w := fun x => s + ln (Rmax x a)). assert (MP : forall x, 0 < Rmax x a) by (intros x; apply Rlt_le_trans with a; [exact Pa|apply Rmax_r]). assert (Cw : forall x, continuous w x) by (intros x; apply c_plus; [apply c_const|apply c_ln; [apply MP|apply c_max]]).
  pose (F := fun x => x * Rerf (sqrt (w x)) - 2 / sqrt PI * a * sqrt (w x)). pose (h := fun x => Rerf (sqrt (w x))).
  assert (Cs : forall x, continuous (fun x => sqrt (w x)) x) by (intros x; apply c_sqrt; apply Cw).
  assert (W : forall x, a < x -> w x = s + ln x) by (intros x Hx; unfold w; rewrite Rmax_left by lra; reflexivity).
  assert (WP : forall x, a < x -> 0 < s + ln x) by (intros x Hx; assert (ln a < ln x) by (apply ln_increasing; lra); lra).
  assert (High : iR h a 1 (F 1 - F a)).
  { apply (FTC_open F h a 1 A2).
    - intros x Hx. apply (is_derive_ext_loc (fun x => x * Rerf (sqrt (s + ln x)) - 2 / sqrt PI * a * sqrt (s + ln x))).
      { exists (mkposreal (x - a) ltac:(lra)). intros y Hy. change (Rabs (y - x) < x - a) in Hy. apply Rabs_lt_between in Hy. unfold F. rewrite W by lra. reflexivity. }
      assert (Px : 0 < x) by lra. pose proof (WP x ltac:(lra)) as Pw. set (r := sqrt (s + ln x)). assert (Pr : 0 < r) by (apply sqrt_lt_R0; exact Pw). assert (RR : r * r = s + ln x) by (apply sqrt_sqrt; lra).
      assert (Dw : is_derive (fun x => s + ln x) x (/ x)) by (auto_derive; [exact Px|field; lra]).
      assert (Ds : is_derive (fun x => sqrt (s + ln x)) x (/ x / (2 * r))) by (apply (dR_sqrt (fun x => s + ln x)); [exact Dw|exact Pw]).
      eapply dR_val; [|apply (dR_minus (fun x => x * Rerf (sqrt (s + ln x))) (fun x => 2 / sqrt PI * a * sqrt (s + ln x))); [apply (dR_mult (fun x => x) (fun x => Rerf (sqrt (s + ln x)))); [apply (is_derive_id x)|apply (dR_comp Rerf (fun x => sqrt (s + ln x))); [apply erf_derive|exact Ds]]|apply (dR_scal (fun x => sqrt (s + ln x))); exact Ds]].
      cbv beta. fold r. rewrite RR. unfold h. rewrite W by lra. fold r. replace (exp (- (s + ln x))) with (a / x). 2:{ rewrite Ropp_plus_distr, exp_plus, exp_Ropp with (x := ln x), exp_ln by exact Px. reflexivity. }
      change (@one R_AbsRing) with 1. field. split; lra.
    - intros x. apply c_erf. apply Cs.
    - intros x. apply (c_minus (fun x => x * Rerf (sqrt (w x))) (fun x => 2 / sqrt PI * a * sqrt (w x))); [apply c_mult; [apply c_id|apply c_erf; apply Cs]|apply (c_mult (fun _ => 2 / sqrt PI * a)); [apply c_const|apply Cs]]. }
  eapply iR_eq; [|eapply (iR_chasles _ 0 a 1); [exact Low|apply (iR_ext h); [lra| |exact High]]].
  - unfold F. rewrite W by lra. rewrite ln_1. unfold w. rewrite Rmax_left by lra. rewrite La. replace (s + - s) with 0 by ring. rewrite sqrt_0, erf_0, Rplus_0_r. unfold MX. fold a. ring.
  - intros x Hx. unfold h. rewrite W by lra. destruct (Rlt_dec 0 (s + ln x)) as [|C]; [reflexivity|]. pose proof (WP x ltac:(lra)). lra.
Qed.
Lemma mx_expect s : 0 <= s -> expect 3 (fun l => if Rle_dec (mx l) s then 1 else 0) (MX s).
Proof. intros Hs. exists (fun x1 => if Rlt_dec 0 (s + ln x1) then Rerf (sqrt (s + ln x1)) else 0). split; [intros x Hx; apply mx_inner; exact Hx|apply mx_outer; exact Hs]. Qed.
Lemma mx_prob s : 0 <= s -> prob 3 (fun l => mx l <= s) (MX s).
Proof. intros Hs. exists (fun l => if Rle_dec (mx l) s then 1 else 0). split; [|apply mx_expect; exact Hs]. intros l _. destruct (Rle_dec (mx l) s); [left|right]; split; auto. Qed.
Lemma mx_dens_int s : 0 <= s -> iR mx_dens 0 s (MX s).
Proof.
  intros [Hs| <-].
  - pose proof sqrtpi as SP. pose proof (mw_integral 1 s ltac:(lra) Hs) as M. unfold mx_dens. eapply (@is_RInt_ext R_NormedModule (fun x => 2 / sqrt PI * (sqrt x * exp (- x / 1)))).
    + intros x _. replace (- x / 1) with (- x) by field. reflexivity.
    + eapply iR_eq; [|apply (@is_RInt_scal R_NormedModule (fun x => sqrt x * exp (- x / 1))); exact M]. unfold mw_true, MX. rewrite pow32, sqrt_1 by lra. replace (s / 1) with s by field. replace (- s / 1) with (- s) by field. match goal with |- ?a = ?b => change (@eq R a b) end. unfold scal. cbn. unfold mult. cbn. field. lra.
  - unfold MX. rewrite sqrt_0, erf_0, Rmult_0_l, Rmult_0_r, Rminus_0_r. exact (@is_RInt_point R_NormedModule mx_dens 0).
Qed.
Lemma MX_true t s : 0 < t -> 0 < s -> MX (s / t) = 2 / sqrt PI * / (t * sqrt t) * mw_true t s.
Proof.
  intros Pt Ps. pose proof sqrtpi as SP. assert (0 < sqrt t) by (apply sqrt_lt_R0; lra). unfold MX, mw_true. rewrite pow32 by exact Pt. replace (- s / t) with (- (s / t)) by (field; lra). field. lra.
Qed.
Lemma mw_true_pos t du : 0 < t -> 0 < du -> 0 < mw_true t du.
Proof.
  intros Pt Pd. pose proof (mw_integral t du Pt Pd) as M. assert (M2 : ex_RInt (fun x => sqrt x * exp (- x / t)) (du / 2) du).
  { apply (@ex_RInt_Chasles_2 R_CompleteNormedModule _ 0); [lra|]. eexists. exact M. } destruct M2 as (K & HK). destruct (@ex_RInt_Chasles_1 R_CompleteNormedModule (fun x => sqrt x * exp (- x / t)) 0 (du / 2) du) as (K0 & HK0); [lra|eexists; exact M|].
  pose proof (iR_chasles _ _ _ _ _ _ HK0 HK) as Q. assert (E : mw_true t du = K0 + K) by (rewrite <- (is_RInt_unique _ _ _ _ M); apply (@is_RInt_unique R_CompleteNormedModule); exact Q).
  pose proof (iR_const_on (fun _ => 0) 0 (du / 2) 0 ltac:(lra) ltac:(reflexivity)) as C0. pose proof (iR_const_on (fun _ => sqrt (du / 2) * exp (- du / t)) (du / 2) du _ ltac:(lra) ltac:(reflexivity)) as C1.
  assert (P1 : 0 < sqrt (du / 2) * exp (- du / t)) by (apply Rmult_lt_0_compat; [apply sqrt_lt_R0; lra|apply exp_pos]).
  assert ((du / 2 - 0) * 0 <= K0) by (apply (is_RInt_le (fun _ => 0) (fun x => sqrt x * exp (- x / t)) 0 (du / 2)); [lra|exact C0|exact HK0|intros x _; apply Rmult_le_pos; [apply sqrt_pos|left; apply exp_pos]]).
  assert ((du - du / 2) * (sqrt (du / 2) * exp (- du / t)) <= K).
  { apply (is_RInt_le (fun _ => sqrt (du / 2) * exp (- du / t)) (fun x => sqrt x * exp (- x / t)) (du / 2) du); [lra|exact C1|exact HK|]. intros x Hx. apply Rmult_le_compat; [apply sqrt_pos|left; apply exp_pos|apply sqrt_le_1; lra|]. apply exp_le. unfold Rdiv. apply Rmult_le_compat_r; [left; apply Rinv_0_lt_compat; lra|lra]. }
  rewrite E. nra.
Qed.

(** ** the sampler *)
Definition mw_phi (t : R) (l : list R) : R := match l with [x1; x2; x3] => let c := cos (PI * x3 / 2) in - t * (ln x1 + ln x2 * c * c) | _ => 0 end.
Lemma mw_rejects temp U E t : temp E = Ok t -> rejects (@mw_sample R NumR temp U E) 3 (mw_phi t) (fun l => 0 <= mw_phi t l <= E - U).
Proof.
  intros Ht. split; [lia|]. split.
  - intros l r [L _] _. destruct l as [|x1 [|x2 [|x3 [|]]]]; try discriminate. cbn [app]. rewrite (mw_step temp U E t x1 x2 x3 r Ht). cbv zeta. match goal with |- context [accept U E ?x] => change x with (mw_phi t [x1; x2; x3]) end.
    pose proof (acc_R U E (mw_phi t [x1; x2; x3])) as A. destruct (accept U E _); [left|right]; (split; [|reflexivity]).
    + apply A; reflexivity.
    + intros X. apply A in X. discriminate.
  - intros l L v r H. rewrite (mw_eq temp U E t l Ht) in H. destruct l as [|x1 [|x2 [|x3 l]]]; cbn in L; [discriminate|discriminate|discriminate|lia].
Qed.
Lemma mw_prob t s : 0 < t -> 0 <= s -> prob 3 (fun l => 0 <= mw_phi t l <= s) (MX (s / t)).
Proof.
  intros Pt Hs. apply (prob_ext 3 (fun l => mx l <= s / t)); [|apply mx_prob; apply Rle_div_r; lra]. intros l Hl. pose proof (mx_pos l Hl) as P. apply ud3 in Hl as (x & y & z & -> & _). assert (E : mw_phi t [x; y; z] = t * mx [x; y; z]) by (cbn; ring). rewrite E. rewrite <- (Rle_div_r (mx [x; y; z]) s t Pt). split; intros; nra.
Qed.
Lemma mw_law temp U E t e : temp E = Ok t -> 0 < t -> 0 < E - U -> 0 < e <= E - U -> law (@mw_sample R NumR temp U E) (fun v => v <= e) (mw_true t e / mw_true t (E - U)).
Proof.
  intros Ht Pt D He. pose proof (mw_true_pos t (E - U) Pt D) as PN. pose proof sqrtpi as SP. assert (ST : 0 < sqrt t) by (apply sqrt_lt_R0; lra).
  assert (PP : 0 < 2 / sqrt PI * / (t * sqrt t)) by (apply Rmult_lt_0_compat; [apply Rdiv_lt_0_compat; lra|apply Rinv_0_lt_compat; nra]).
  assert (X : law (@mw_sample R NumR temp U E) (fun v => v <= e) (MX (e / t) / MX ((E - U) / t))).
  { apply (law_rejects _ 3 (mw_phi t) (fun l => 0 <= mw_phi t l <= E - U) (fun v => v <= e)); [apply mw_rejects; exact Ht|apply mw_prob; lra| |rewrite MX_true by lra; apply Rmult_lt_0_compat; assumption].
    apply (prob_ext 3 (fun l => 0 <= mw_phi t l <= e)); [intros; split; intros; lra|]. apply mw_prob; lra. }
  rewrite !MX_true in X by lra. replace (mw_true t e / mw_true t (E - U)) with (2 / sqrt PI * / (t * sqrt t) * mw_true t e / (2 / sqrt PI * / (t * sqrt t) * mw_true t (E - U))); [exact X|]. field. repeat split; lra.
Qed.
Lemma mw_law0 temp U E t : temp E = Ok t -> 0 < t -> 0 < E - U -> law (@mw_sample R NumR temp U E) (fun v => v <= 0) 0.
Proof.
  intros Ht Pt D. pose proof (mw_true_pos t (E - U) Pt D) as PN. pose proof sqrtpi as SP. assert (ST : 0 < sqrt t) by (apply sqrt_lt_R0; lra).
  assert (PP : 0 < 2 / sqrt PI * / (t * sqrt t)) by (apply Rmult_lt_0_compat; [apply Rdiv_lt_0_compat; lra|apply Rinv_0_lt_compat; nra]).
  enough (X : law (@mw_sample R NumR temp U E) (fun v => v <= 0) (0 / MX ((E - U) / t))) by (unfold Rdiv at 1 in X; rewrite Rmult_0_l in X; exact X).
  apply (law_rejects _ 3 (mw_phi t) (fun l => 0 <= mw_phi t l <= E - U) (fun v => v <= 0)); [apply mw_rejects; exact Ht|apply mw_prob; lra| |rewrite MX_true by lra; apply Rmult_lt_0_compat; assumption].
  apply prob_never. intros l Hl [_ A]. pose proof (mx_pos l Hl) as P. apply ud3 in Hl as (x & y & z & -> & _). assert (E0 : mw_phi t [x; y; z] = t * mx [x; y; z]) by (cbn; ring). rewrite E0 in A. nra.
Qed.
Lemma mw_density temp U E t : temp E = Ok t -> 0 < t -> 0 < E - U -> has_density (@mw_sample R NumR temp U E) 0 (E - U) (fun x => sqrt x * exp (- x / t) / mw_true t (E - U)).
Proof.
  intros Ht Pt D. pose proof (mw_true_pos t (E - U) Pt D) as PN. split.
  - pose proof (mw_law temp U E t (E - U) Ht Pt D ltac:(lra)) as L. unfold Rdiv in L. rewrite Rinv_r in L by lra. apply (law_ext _ (fun v => v <= E - U)); [|exact L]. intros v ds r H. apply mw_range in H as [A B]. change (@nleb R NumR) with Rleb in A. change (@nofZ R NumR 0) with 0 in A. apply Rleb_true in A. split; intros; lra.
  - intros e [He1 He2]. destruct He1 as [He1| <-].
    + exists (mw_true t e / mw_true t (E - U)). split; [apply mw_law; try assumption; lra|]. apply (iR_ext (fun x => / mw_true t (E - U) * (sqrt x * exp (- x / t)))); [lra|intros x _; unfold Rdiv; ring|]. eapply iR_eq; [|apply iR_scal, (mw_integral t e Pt He1)]. unfold Rdiv. ring.
    + exists 0. split; [exact (mw_law0 temp U E t Ht Pt D)|]. exact (@is_RInt_point R_NormedModule _ 0).
Qed.
