(** * C90: the distribution of the target velocity with resonance rejection *)
From Coq Require Import Reals Lra Lia List ZifyBool ZifyNat. From Coquelicot Require Import Coquelicot.
From Verif Require Import Base NumR L_SearchR M_Grid S_Grid M_Kin S_Kin M_Doppler S_Doppler S_Prob S_ProbSvt L_Xs L_Xs2 L_Xs3 L_Doppler L_ProbSvt6 L_ProbDbrc6. Import ListNotations.
Local Open Scope R_scope.

(** The sampler returns with probability 1, and the probability that the velocity it returns has speed at most V, cosine to
    the neutron at most m and azimuth at most A is the integral over that region of (Maxwell-Boltzmann density of the
    target) x (relative speed) x (cross section at the relative energy), restricted to relative energies in the window,
    divided by the same integral over all velocities.  The window starts on the grid (below
    it the code extrapolates the first cell, C44) and the cross section is positive somewhere in it (C79_zero_window). *)
Theorem C90_resonance_velocity : forall vals NB sig x Ein kT awr s, energy_grid vals -> strictly_increasing vals -> bins_ok NB -> built vals NB sig 0 x ->
  0 < Ein -> 0 < kT -> 0 < awr -> getR vals 0 <= window_low Ein kT awr -> (forall E, xs_eval x E = Ok (s E)) -> (exists E, window_low Ein kT awr <= E <= window_high Ein kT awr /\ 0 < s E) ->
  exists N, 0 < N /\ total_weight (resonance_kernel s Ein kT awr) Ein kT awr N /\ law (@dbrc_sample R NumR x Ein kT awr) (fun _ => True) 1 /\
    forall V m A, 0 < V -> -1 <= m <= 1 -> 0 <= A <= 2 * PI ->
      exists J, reaction_weight (resonance_kernel s Ein kT awr) Ein kT awr V m J /\
        law (@dbrc_sample R NumR x Ein kT awr) (velocity_region V m A) (J / N * (A / (2 * PI))).
Proof. exact dbrc_velocity_law. Qed.
Print Assumptions C90_resonance_velocity.
(** a region has only one weight *)
Theorem C90_weight_unique : forall k Ein kT awr V m J J', 0 < V -> reaction_weight k Ein kT awr V m J -> reaction_weight k Ein kT awr V m J' -> J = J'.
Proof. intros k Ein kT awr V m J J' HV H H'. exact (weight_unique Ein kT awr k m V J J' HV H H'). Qed.
Print Assumptions C90_weight_unique.
Example C90_nonvacuous : exists x s q, built gex 4 [9; 5; 7] 0 x /\ (forall E, xs_eval x E = Ok (s E)) /\ 0 < s 4 /\
  law (@dbrc_sample R NumR x 4 (1/10000) 1) (fun _ => True) 1 /\ law (@dbrc_sample R NumR x 4 (1/10000) 1) (velocity_region (1/100) 1 (2 * PI)) q /\
  law (@dbrc_sample R NumR x 4 (1/10000) 1) (velocity_region (1/100) 1 PI) (q / 2).
Proof.
  assert (HB : exists x, built gex 4 [9; 5; 7] 0 x) by (apply built_exists; [exact gex_ok|exact gex_bins|cbn; lia|reflexivity|intros v [<-|[<-|[<-|[]]]]; lra]).
  destruct HB as (x & HB). assert (I : (0 <= 0 < 2 ^ 32)%Z) by lia. destruct (built_ok _ _ _ _ _ gex_ok gex_bins I HB) as (X & V & S & J & _).
  set (s := fun E => match xs_eval x E with Ok v => v | _ => 0 end). assert (Hs : forall E, xs_eval x E = Ok (s E)) by (intros E; unfold s; destruct (xs_eval_spec x E X) as (v & -> & _); reflexivity).
  assert (P : 0 < s 4).
  { assert (gridv x = gex) by exact V. pose proof (xs_eval_above x 4 X) as Q. rewrite Hs, H, S in Q. change (getR gex (sizeZ gex - 1)) with 4 in Q. specialize (Q ltac:(lra)). injection Q as ->. change (0 < 7). lra. }
  assert (W : getR gex 0 <= window_low 4 (1/10000) 1). { change (getR gex 0) with 1. unfold window_low, reduced. replace (1 * 4 / (1 / 10000)) with (200 * 200) by field. rewrite sqrt_square by lra. rewrite Rmax_right by lra. unfold Rsqr. lra. }
  assert (W4 : window_low 4 (1/10000) 1 <= 4 <= window_high 4 (1/10000) 1) by (destruct (window_order 4 (1/10000) 1) as [[_ ?] ?]; lra).
  pose proof PI_RGT_0 as PP. destruct (C90_resonance_velocity _ _ _ x 4 (1/10000) 1 s gex_ok gex_strict gex_bins HB ltac:(lra) ltac:(lra) ltac:(lra) W Hs (ex_intro _ 4 (conj W4 P))) as (N & HN & _ & L1 & H).
  destruct (H (1/100) 1 (2 * PI) ltac:(lra) ltac:(lra) ltac:(lra)) as (J1 & W1 & H1). destruct (H (1/100) 1 PI ltac:(lra) ltac:(lra) ltac:(lra)) as (J2 & W2 & H2). rewrite (C90_weight_unique _ _ _ _ (1/100) 1 J2 J1 ltac:(lra) W2 W1) in H2.
  exists x, s, (J1 / N). split; [exact HB|]. split; [exact Hs|]. split; [exact P|]. split; [exact L1|]. split.
  - replace (J1 / N) with (J1 / N * (2 * PI / (2 * PI))) by (field; lra). exact H1.
  - replace (J1 / N / 2) with (J1 / N * (PI / (2 * PI))) by (field; lra). exact H2.
Qed.
