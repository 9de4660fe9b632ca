(** * C89: the distribution of the target velocity in a free gas *)
From Coq Require Import Reals Lra Lia List ZifyBool ZifyNat. From Coquelicot Require Import Coquelicot.
From Verif Require Import Base NumR M_Kin S_Kin S_Doppler S_Prob S_ProbSvt L_ProbSvt7. Import ListNotations.
Local Open Scope R_scope.

(** The sampler returns with probability 1, and the probability that the velocity it returns has speed at most V, cosine to
    the neutron at most m and azimuth at most A is the integral over that region of (Maxwell-Boltzmann density of the
    target) x (relative speed), divided by the same integral over all velocities *)
Theorem C89_free_gas_velocity : forall Ein kT awr, 0 < Ein -> 0 < kT -> 0 < awr ->
  exists N, 0 < N /\ total_weight (fun t => t) Ein kT awr N /\ law (@svt_sample R NumR Ein kT awr) (fun _ => True) 1 /\
    forall V m A, 0 < V -> -1 <= m <= 1 -> 0 <= A <= 2 * PI ->
      exists J, reaction_weight (fun t => t) Ein kT awr V m J /\
        law (@svt_sample R NumR Ein kT awr) (velocity_region V m A) (J / N * (A / (2 * PI))).
Proof. exact svt_velocity_law. Qed.
Print Assumptions C89_free_gas_velocity.
(** the weights are those of the English statement, not of an empty definition: they exist, are unique and, for a region of
    positive size, positive *)
Theorem C89_weights : forall Ein kT awr V m, 0 < Ein -> 0 < kT -> 0 < awr -> 0 < V -> -1 < m <= 1 ->
  exists J, 0 < J /\ forall J', reaction_weight (fun t => t) Ein kT awr V m J' <-> J' = J.
Proof. intros Ein kT awr V m HE Hk Ha HV Hm. exact (svt_weight_pos Ein kT awr HE Hk Ha V m HV Hm). Qed.
Print Assumptions C89_weights.
(** a concrete case: hydrogen at room temperature, a 1 eV neutron: half of the velocities have azimuth at most pi *)
Example C89_nonvacuous : exists q, law (@svt_sample R NumR (1/1000000) (253/10000000000) 1) (velocity_region (1/1000) 1 (2 * PI)) q /\
  law (@svt_sample R NumR (1/1000000) (253/10000000000) 1) (velocity_region (1/1000) 1 PI) (q / 2) /\ 0 < q.
Proof.
  assert (H1 : 0 < 1/1000000) by lra. assert (H2 : 0 < 253/10000000000) by lra. assert (H3 : 0 < 1) by lra. pose proof PI_RGT_0 as PP.
  destruct (C89_free_gas_velocity _ _ _ H1 H2 H3) as (N & HN & _ & _ & H). destruct (H (1/1000) 1 (2 * PI) ltac:(lra) ltac:(lra) ltac:(lra)) as (J & HJ & L). destruct (H (1/1000) 1 PI ltac:(lra) ltac:(lra) ltac:(lra)) as (J' & HJ' & L').
  destruct (C89_weights (1/1000000) (253/10000000000) 1 (1/1000) 1 H1 H2 H3 ltac:(lra) ltac:(lra)) as (J0 & P0 & U). apply U in HJ, HJ'. subst J J'.
  exists (J0 / N * (2 * PI / (2 * PI))). split; [exact L|]. split; [replace (J0 / N * (2 * PI / (2 * PI)) / 2) with (J0 / N * (PI / (2 * PI))) by (field; lra); exact L'|].
  replace (J0 / N * (2 * PI / (2 * PI))) with (J0 / N) by (field; lra). apply Rdiv_lt_0_compat; assumption.
Qed.
