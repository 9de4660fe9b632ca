(** * Properties C78, C79, C80: thermal motion of the target (SVT and DBRC) *)
From Coq Require Import Reals Lra Lia List ZifyBool ZifyNat.
From Verif Require Import NumF Base NumR L_SearchR M_Grid S_Grid L_Grid L_Xs L_Xs2 L_Xs3 M_Kin S_Kin M_Doppler S_Doppler L_Doppler L_DopplerF.
Import ListNotations.
Local Open Scope R_scope.

(** ** C78: the free-gas sampler is exactly the rejection scheme *)
Theorem C78_svt_is_the_rejection_scheme : forall Ein kT awr ds v ds', 0 <= Ein -> 0 < kT -> 0 < awr -> (forall d, In d ds -> 0 < d < 1) ->
  (svt_sample Ein kT awr ds = Ok (v, ds') <-> exists l, ds = l ++ ds' /\ svt_velocity Ein kT awr l v).
Proof. intros. apply svt_sample_run; assumption. Qed.
Print Assumptions C78_svt_is_the_rejection_scheme.
(** it never fails: it returns, or wants more random numbers *)
Theorem C78_svt_returns_or_asks_for_more : forall Ein kT awr ds,
  (exists r, @svt_sample R NumR Ein kT awr ds = Ok r) \/ @svt_sample R NumR Ein kT awr ds = NoDraw.
Proof. exact svt_sample_total. Qed.
Print Assumptions C78_svt_returns_or_asks_for_more.
(** the acceptance probability, relative speed over sum of speeds, is a probability *)
Theorem C78_acceptance_is_a_probability : forall Ein V mu, 0 <= Ein -> 0 <= V -> -1 <= mu <= 1 ->
  0 <= relative_speed Ein V mu <= sqrt Ein + V.
Proof. exact accept_prob. Qed.
Print Assumptions C78_acceptance_is_a_probability.
(** the velocity returned has the accepted speed and cosine, and its energy relative to the neutron is the square of the
    relative speed of the acceptance test *)
Theorem C78_geometry : forall Ein V mu phi, 0 <= Ein -> 0 <= V -> -1 <= mu <= 1 ->
  let v := velocity V mu phi in
  norm2 v = V * V /\ dot (mkVec 0 0 1) v = V * mu /\ relative_energy Ein v = relative_speed Ein V mu * relative_speed Ein V mu.
Proof.
  intros Ein V mu phi HE HV Hm v. destruct (velocity_facts V mu phi Hm) as [H1 H2]. split; [exact H1|].
  split; [unfold dot; cbn [vx vy vz]; rewrite <- H2; unfold v; ring|].
  unfold v. rewrite relative_energy_velocity by assumption. unfold relative_speed. rewrite sqrt_sqrt; [reflexivity|].
  assert (Q : sqrt Ein * sqrt Ein = Ein) by (apply sqrt_sqrt; lra). pose proof (sqrt_pos Ein).
  pose proof (Rle_0_sqr (sqrt Ein - V)) as S1. unfold Rsqr in S1.
  assert (0 <= sqrt Ein * V * (1 - mu)) by (apply Rmult_le_pos; [apply Rmult_le_pos|]; lra). nra.
Qed.
Print Assumptions C78_geometry.
Example C78_nonvacuous : svt_velocity 1 1 1 [1/10; 1/2; 1/2; 1/2; 1/2; 1/4] (velocity (target_speed 1 1 (- ln (1/2 * (1/2)))) (2 * (1/2) - 1) (2 * PI * (1/4))).
Proof.
  exists [1/10; 1/2; 1/2; 1/2; 1/2], (1/4), (- ln (1/2 * (1/2))), (2 * (1/2) - 1). split; [reflexivity|]. split; [|reflexivity].
  apply (run_accept 1 1 1 [1/10; 1/2; 1/2; 1/2] (1/2)).
  - apply prop_first. unfold reduced. replace (1 * 1 / 1) with 1 by field. rewrite sqrt_1.
    assert (sqrt PI <= 2). { rewrite <- (sqrt_square 2) by lra. apply sqrt_le_1_alt. pose proof PI_4. lra. }
    pose proof (sqrt_pos PI). apply Rmult_lt_reg_r with (sqrt PI * 1 + 2); [lra|]. field_simplify; lra.
  - unfold svt_accepts, relative_speed. rewrite sqrt_1. set (V := target_speed _ _ _). assert (0 <= V) by apply sqrt_pos.
    rewrite <- (sqrt_square (1/2 * (1 + V))) by lra. apply sqrt_lt_1_alt. nra.
Qed.
(** so the sampler returns on these six numbers (used by C60 as well) *)
Example C60_C78_nonvacuous : (forall d, In d [1/10; 1/2; 1/2; 1/2; 1/2; 1/4] -> 0 < d < 1) /\ exists v, svt_sample 1 1 1 [1/10; 1/2; 1/2; 1/2; 1/2; 1/4] = Ok (v, []).
Proof.
  assert (U : forall d, In d [1/10; 1/2; 1/2; 1/2; 1/2; 1/4] -> 0 < d < 1) by (intros d H; repeat destruct H as [<-|H]; try lra; destruct H).
  split; [exact U|]. eexists. apply C78_svt_is_the_rejection_scheme; try lra; [exact U|]. eexists. split; [symmetry; apply app_nil_r|exact C78_nonvacuous].
Qed.

(** ** C79: the resonance-corrected sampler, and its majorant is the maximum of the cross section over the window *)
Theorem C79_dbrc_is_the_rejection_scheme : forall vals NB sig x Ein kT awr s, energy_grid vals -> strictly_increasing vals -> bins_ok NB -> built vals NB sig 0 x ->
  0 <= Ein -> 0 < kT -> 0 < awr -> getR vals 0 <= window_low Ein kT awr -> (forall E, xs_eval x E = Ok (s E)) ->
  exists M, maximum_on s (window_low Ein kT awr) (window_high Ein kT awr) M /\
    forall ds, (forall d, In d ds -> 0 < d < 1) ->
      (forall v ds', dbrc_sample x Ein kT awr ds = Ok (v, ds') <-> exists l, ds = l ++ ds' /\ dbrc_run s M Ein kT awr l v) /\
      ((exists r, dbrc_sample x Ein kT awr ds = Ok r) \/ dbrc_sample x Ein kT awr ds = NoDraw).
Proof.
  intros vals NB sig x Ein kT awr s G SI N B HE Hk Ha H1 Hs. assert (I : (0 <= 0 < 2 ^ 32)%Z) by lia.
  destruct (built_ok _ _ _ _ _ G N I B) as (X & V & S & J & H & P & _). rewrite <- V in *. destruct N as [N1 N2].
  apply dbrc_sample_run with (NB := NB); try assumption. rewrite S. exact P.
Qed.
Print Assumptions C79_dbrc_is_the_rejection_scheme.
(** in particular it never returns when the cross section vanishes on the whole window: every finite sequence of numbers is used up *)
Theorem C79_zero_window : forall vals NB sig x Ein kT awr s, energy_grid vals -> strictly_increasing vals -> bins_ok NB -> built vals NB sig 0 x ->
  0 <= Ein -> 0 < kT -> 0 < awr -> getR vals 0 <= window_low Ein kT awr -> (forall E, xs_eval x E = Ok (s E)) ->
  (forall E, window_low Ein kT awr <= E <= window_high Ein kT awr -> s E = 0) ->
  forall ds, (forall d, In d ds -> 0 < d < 1) -> dbrc_sample x Ein kT awr ds = NoDraw.
Proof.
  intros vals NB sig x Ein kT awr s G SI N B HE Hk Ha H1 Hs Z ds U.
  destruct (C79_dbrc_is_the_rejection_scheme vals NB sig x Ein kT awr s G SI N B HE Hk Ha H1 Hs) as (M & [(E0 & W0 & M0) _] & Q). rewrite (Z E0 W0) in M0. subst M.
  destruct (Q ds U) as [Q1 [[[v r] Q2]|Q2]]; [|exact Q2]. exfalso. apply Q1 in Q2 as (l & _ & Run). clear - Run Z.
  remember 0 as M eqn:EM. induction Run as [l v r _ W A| |]; auto. rewrite (Z _ W), EM in A. lra.
Qed.
Print Assumptions C79_zero_window.
(** the window contains the neutron's own energy *)
Theorem C79_window : forall Ein kT awr, 0 <= Ein -> 0 < kT -> 0 < awr ->
  0 <= window_low Ein kT awr <= Ein /\ Ein <= window_high Ein kT awr.
Proof. exact window_order. Qed.
Print Assumptions C79_window.
Example C79_nonvacuous : (exists x s, built gex 4 [9; 5; 7] 0 x /\ forall E, xs_eval x E = Ok (s E)) /\ getR gex 0 <= window_low 4 (1/10000) 1.
Proof.
  assert (HB : exists x, built gex 4 [9; 5; 7] 0 x) by (apply built_exists; [exact gex_ok|exact gex_bins|cbn; lia|reflexivity|intros v [<-|[<-|[<-|[]]]]; lra]).
  destruct HB as (x & HB). assert (I : (0 <= 0 < 2 ^ 32)%Z) by lia. destruct (built_ok _ _ _ _ _ gex_ok gex_bins I HB) as (X & _).
  split.
  - exists x, (fun E => match xs_eval x E with Ok v => v | _ => 0 end). split; [exact HB|]. intros E.
    destruct (xs_eval_spec x E X) as (v & -> & _). reflexivity.
  - change (getR gex 0) with 1. unfold window_low, reduced. replace (1 * 4 / (1 / 10000)) with (200 * 200) by field.
    rewrite sqrt_square by lra. rewrite Rmax_right by lra. unfold Rsqr. lra.
Qed.

(** ** C80: the rejection loop makes progress, except for a target at absolute zero *)
(** whatever the energies, a trial whose cosine is not forward and whose test number is at most 0.7 is accepted, and the call
    returns with the trial's velocity: each trial ends the loop with probability at least 0.35 *)
Theorem C80_each_trial_may_end_the_loop_partial : forall Ein kT awr l x2 mu r z rest, 0 <= Ein -> 0 < kT -> 0 < awr ->
  (forall d, In d (l ++ r :: z :: rest) -> 0 < d < 1) ->
  svt_proposal (reduced Ein kT awr) l x2 mu -> mu <= 0 -> r <= 7/10 ->
  svt_sample Ein kT awr (l ++ r :: z :: rest) = Ok (velocity (target_speed kT awr x2) mu (2 * PI * z), rest).
Proof. exact svt_returns_soon. Qed.
Print Assumptions C80_each_trial_may_end_the_loop_partial.
(** every five numbers, or four if the first is below 2/(sqrt(pi) y + 2), are a trial *)
Theorem C80_trials_partial : forall y xi a b d m,
  (xi < 2 / (sqrt PI * y + 2) -> exists x2, svt_proposal y [xi; a; b; m] x2 (2 * m - 1)) /\
  (2 / (sqrt PI * y + 2) <= xi -> exists x2, svt_proposal y [xi; a; b; d; m] x2 (2 * m - 1)).
Proof. intros. split; intros; eexists; constructor; assumption. Qed.
Print Assumptions C80_trials_partial.
(** binary64, any libm: an object built at 0 K without the target-at-rest approximation never returns a sample, however many
    random numbers it consumes *)
Theorem C80_zero_kelvin_never_returns_refuted : forall lm ang awr tar e Ein, (0 <? awr * Ein)%float = true ->
  @make_elastic float (NumF lm) (Some (@svt_sample float (NumF lm))) ang awr 0%float false tar = Ok e ->
  forall ds, @elastic_sample float (NumF lm) e Ein ds = NoDraw.
Proof. exact elastic_zero_kelvin. Qed.
Print Assumptions C80_zero_kelvin_never_returns_refuted.
Example C80_zero_kelvin_nonvacuous : forall lm ang, (0 <? 238 * 1)%float = true /\
  exists e, @make_elastic float (NumF lm) (Some (@svt_sample float (NumF lm))) ang 238%float 0%float false 400%float = Ok e.
Proof. intros. split; [reflexivity|apply elastic_zero_kelvin_built]. Qed.
