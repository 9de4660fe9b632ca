(** * Property theorems C45 - C47, C70, C71: thermal scattering *)
From Coquelicot Require Import Coquelicot.
From Coq Require Import Reals Lra Lia List.
From Verif Require Import NumF Base NumR L_Search L_SearchR M_Interp M_Tab1D M_PC S_PC L_PCR M_OutE S_OutE M_Ace M_Thermal S_Thermal L_Thermal L_Thermal2 L_Thermal3 L_ThermalF L_ThermalEx S_Neutron L_Grid L_Ace.
Import ListNotations.
Local Open Scope R_scope.

(** ** C45.  Coherent elastic scattering.  [make_coh] is the constructor; [last_edge_below edges E l] (S_Thermal): l is the last
    Bragg edge below E; [c_sum] are the cumulated structure factors. *)
Theorem C45_accepted_edges : forall a c, make_coh a = Ok c -> increasing (c_edges c) /\ (forall e, In e (c_edges c) -> 0 <= e) /\ sizeZ (c_sum c) = sizeZ (c_edges c) /\
  (nxs a 4 = 4%Z -> (0 < sizeZ (c_edges c))%Z) /\ (nxs a 4 <> 4%Z -> c_edges c = []).
Proof.
  intros a c M. destruct (make_coh_valid a c M) as [A B C]. repeat (split; [assumption|]). split; [apply make_coh_nonempty, M|].
  intros N. rewrite (make_coh_absent a N) in M. injection M as <-. reflexivity.
Qed.
(** the cross section: zero below the first edge; above it, except exactly at the first edge, the sum at the last edge below E over E
    (at the last edge itself, the total sum) *)
Theorem C45_xs_partial : forall a c E, make_coh a = Ok c -> (0 < sizeZ (c_edges c))%Z ->
  (E < getR (c_edges c) 0 -> coh_xs c E = Ok 0) /\
  (getR (c_edges c) 0 < E -> E <> getR (c_edges c) (sizeZ (c_edges c) - 1) ->
     exists l, last_edge_below (c_edges c) E l /\ coh_xs c E = Ok (getR (c_sum c) l / E)).
Proof. intros a c E M S. pose proof (make_coh_valid a c M) as V. split; [apply coh_xs_below; assumption|apply coh_xs_between; assumption]. Qed.
Theorem C45_no_edges : forall a c E, make_coh a = Ok c -> c_edges c = [] -> coh_xs c E = Ok 0.
Proof. intros a c E M H. apply coh_xs_empty. rewrite H. reflexivity. Qed.
Theorem C45_at_most_one_last_edge : forall a c E l l', make_coh a = Ok c -> last_edge_below (c_edges c) E l -> last_edge_below (c_edges c) E l' -> l = l'.
Proof. intros a c E l l' M. apply last_edge_unique. apply (make_coh_valid a c M). Qed.
(** exactly at the first edge, where no edge is below E, the cross section is the sum over all edges instead of zero *)
Theorem C45_at_first_edge_refuted : forall a c, make_coh a = Ok c -> (0 < sizeZ (c_edges c))%Z ->
  coh_xs c (getR (c_edges c) 0) = Ok (getR (c_sum c) (sizeZ (c_sum c) - 1) / getR (c_edges c) 0) /\ ~ exists l, (0 <= l < sizeZ (c_edges c))%Z /\ getR (c_edges c) l < getR (c_edges c) 0.
Proof.
  intros a c M S. pose proof (make_coh_valid a c M) as V. split; [apply coh_xs_at_first; assumption|]. intros (l & Hl & H).
  assert (getR (c_edges c) 0 <= getR (c_edges c) l) by (apply (vc_edges _ V); lia). lra.
Qed.
Theorem C45_at_last_edge : forall a c, make_coh a = Ok c -> (0 < sizeZ (c_edges c))%Z ->
  coh_xs c (getR (c_edges c) (sizeZ (c_edges c) - 1)) = Ok (getR (c_sum c) (sizeZ (c_edges c) - 1) / getR (c_edges c) (sizeZ (c_edges c) - 1)).
Proof. intros a c M S. apply coh_xs_at_last; [exact (make_coh_valid a c M)|exact S]. Qed.
(** sampling: the edge m is at or before the last edge l below E, it is chosen by inverting the cumulated factors
    S_{m-1} < xi * S_l <= S_m, the cosine is 1 - 2 E_m / E in (-1, 1], the energy is unchanged. Needs cumulated factors (increasing,
    non-negative): the constructor does not check them. *)
Theorem C45_sample_partial : forall a c E xi ds, make_coh a = Ok c -> increasing (c_sum c) -> 0 <= getR (c_sum c) 0 -> (0 < sizeZ (c_edges c))%Z -> getR (c_edges c) 0 < E -> 0 <= xi < 1 ->
  exists l m, last_edge_below (c_edges c) E l /\ (0 <= m <= l)%Z /\
    xi * getR (c_sum c) l <= getR (c_sum c) m /\ ((0 < m)%Z -> getR (c_sum c) (m - 1) < xi * getR (c_sum c) l) /\
    coh_sample c E (xi :: ds) = Ok ((1 - 2 * getR (c_edges c) m / E, E), ds) /\ -1 < 1 - 2 * getR (c_edges c) m / E <= 1.
Proof. intros a c E xi ds M. apply coh_sample_spec. exact (make_coh_valid a c M). Qed.
Theorem C45_sample_below : forall a c E ds, make_coh a = Ok c -> (0 < sizeZ (c_edges c))%Z -> E <= getR (c_edges c) 0 -> coh_sample c E ds = Ok ((1, E), ds).
Proof. intros a c E ds _. apply coh_sample_below. Qed.
Example C45_hypotheses_met : make_coh coh_ex = Ok (mkCoh [1; 4] [3; 5]) /\ increasing [3; 5] /\ 0 <= getR [3; 5] 0 /\ (0 < sizeZ [1%R; 4%R])%Z /\ getR [1; 4] 0 < 2.
Proof. exact coh_example. Qed.

(** ** C46.  Discrete outgoing energies and cosines.  [kth n x k]: the draw x falls in the k-th of n equal bins; [skewed_index]: the
    unequal bins 1, 4, 10, ..., 10, 4, 1; [neighbours]: the bracketing incident energies (S_Thermal). *)
Theorem C46_accepted_tables : forall a d, make_dce a = Ok d -> (0 < sizeZ (d_in d))%Z -> (0 < d_noe d)%Z -> (0 < d_nmu d)%Z -> valid_dce d.
Proof. exact make_dce_valid. Qed.
Theorem C46_equiprobable : forall a d E x y ds, make_dce a = Ok d -> (0 < sizeZ (d_in d))%Z -> (0 < d_noe d)%Z -> (0 < d_nmu d)%Z -> d_skewed d = false -> 0 <= x < 1 -> 0 <= y < 1 ->
  exists j k i1 i2 f mu Eo, kth (d_nmu d) x k /\ kth (d_noe d) y j /\ neighbours (d_in d) E i1 i2 f /\ mu = mix f (dce_cos d i1 j k) (dce_cos d i2 j k) /\ -1 <= mu <= 1 /\
    Eo = mix f (dce_energy d i1 j) (dce_energy d i2 j) /\ 0 < Eo /\ dce_sample d E (x :: y :: ds) = Ok ((mu, Eo), ds).
Proof. intros a d E x y ds M S1 S2 S3. apply dce_sample_equi, (make_dce_valid a d M S1 S2 S3). Qed.
Theorem C46_skewed : forall a d E x xi y ds, make_dce a = Ok d -> (0 < sizeZ (d_in d))%Z -> (0 < d_nmu d)%Z -> d_skewed d = true -> 0 <= x < 1 -> 0 <= xi < 1 -> 0 <= y < 1 ->
  exists j k i1 i2 f mu Eo rest, kth (d_nmu d) x k /\ skewed_index (d_noe d) xi y j /\ (0 <= j < d_noe d)%Z /\ neighbours (d_in d) E i1 i2 f /\ mu = mix f (dce_cos d i1 j k) (dce_cos d i2 j k) /\ -1 <= mu <= 1 /\
    Eo = mix f (dce_energy d i1 j) (dce_energy d i2 j) /\ 0 < Eo /\ dce_sample d E (x :: xi :: y :: ds) = Ok ((mu, Eo), rest).
Proof. exact dce_skew_accepted. Qed.
(** the bins: equal ones have length 1/n; the skewed ones c, 4c, (n-4) times 10c, 4c, c; both tile [0,1), and every draw is in one bin only *)
Theorem C46_probabilities : forall n, ((0 < n < 2 ^ 32)%Z -> forall x, 0 <= x < 1 -> exists! k, kth n x k) /\
  ((6 <= n < 2 ^ 32)%Z -> let c := unit_prob n in c + 4 * c + (IZR n - 4) * (10 * c) + 4 * c + c = 1 /\ 1 - 5 * c - 5 * c = (IZR n - 4) * (10 * c) /\
    forall xi y, 0 <= xi < 1 -> 0 <= y < 1 -> exists! j, skewed_index n xi y j).
Proof. exact index_probabilities. Qed.
(** two incident energies, two outgoing energies, two cosines *)
Example C46_hypotheses_met : exists a, make_dce a = Ok dce_ex /\ (0 < sizeZ (d_in dce_ex))%Z /\ (0 < d_noe dce_ex)%Z /\ (0 < d_nmu dce_ex)%Z.
Proof. exact dce_example. Qed.
Example C46_skewed_hypotheses_met : exists a d, make_dce a = Ok d /\ (0 < sizeZ (d_in d))%Z /\ (0 < d_nmu d)%Z /\ d_skewed d = true.
Proof. exact dce_skew_example. Qed.

(** ** C47.  Continuous outgoing energies, discrete cosines.  [shape_cedc] (S_Thermal) lists what the constructor guarantees. *)
Theorem C47_accepted_tables : forall a u d, make_cedc a u = Ok d -> (0 < sizeZ (ce_in d))%Z -> shape_cedc d /\ ce_unit d = u.
Proof. exact make_cedc_shape. Qed.
(** no out-of-range access and a cosine in [-1,1] for every accepted file with at least two incident energies and two outgoing
    energies in every table; the draws: xi for the energy, y for the table (unit-based only), x for the cosine index, z for its smearing *)
Theorem C47_safe_partial : forall a u d E xi y x z ds, make_cedc a u = Ok d -> (2 <= sizeZ (ce_in d))%Z -> (forall t, In t (ce_tables d) -> (2 <= sizeZ (ct_energy t))%Z) -> 0 <= x < 1 -> 0 <= y < 1 ->
  exists mu Eo rest, cedc_sample d E (xi :: y :: x :: z :: ds) = Ok ((mu, Eo), rest) /\ -1 <= mu <= 1.
Proof.
  intros a u d E xi y x z ds M N2 NT X Y. destruct (make_cedc_shape a u d M ltac:(lia)) as [S EU]. unfold cedc_sample. destruct (ce_unit d); cbn [negb].
  - destruct (cedc_unit_safe d E xi y x z ds S N2 NT X) as (mu & Eo & R & B). exists mu, Eo, ds. split; assumption.
  - destruct (cedc_nearest_safe d E xi y x (z :: ds) S N2 NT Y) as (mu & Eo & R & B). exists mu, Eo, (z :: ds). split; assumption.
Qed.
(** with unit-based interpolation and tables whose CDF is the integral of their PDF: the outgoing energy divides the interpolated
    limits as h divides the limits of the chosen table, where h inverts the CDF of that table at xi; the cosine is in the bin of the k-th
    cosine interpolated at the position of xi in its CDF segment *)
Theorem C47_unit_based_partial : forall a d E xi y x z ds, make_cedc a true = Ok d -> (2 <= sizeZ (ce_in d))%Z -> (forall t, In t (ce_tables d) -> valid_ct (ce_nmu d) t) -> 0 <= xi < 1 -> 0 <= x < 1 -> 0 <= z < 1 ->
  exists l f t1 t2 h j k mu Eo, bracket (ce_in d) E l f /\ atZ (ce_tables d) l = Ok t1 /\ atZ (ce_tables d) (l + 1) = Ok t2 /\
    let t := if Rlt_dec f y then t1 else t2 in
    let lo := mix f (first_of (ct_energy t1)) (first_of (ct_energy t2)) in let hi := mix f (last_of (ct_energy t1)) (last_of (ct_energy t2)) in
    cedc_sample d E (xi :: y :: x :: z :: ds) = Ok ((mu, Eo), ds) /\ lo <= Eo <= hi /\ 0 <= Eo /\
    same_fraction Eo lo hi h (first_of (ct_energy t)) (last_of (ct_energy t)) /\
    is_RInt (dens (ct_energy t) (ct_pdf t) (ct_cdf t) LinLin) (first_of (ct_energy t)) h xi /\
    (0 <= j)%Z /\ (j + 1 < sizeZ (ct_energy t))%Z /\ getR (ct_cdf t) j <= xi <= getR (ct_cdf t) (j + 1) /\ kth (ce_nmu d) x k /\
    in_cosine_bin (nth (Z.to_nat j) (ct_cos t) []) (nth (Z.to_nat (j + 1)) (ct_cos t) []) ((xi - getR (ct_cdf t) j) / (getR (ct_cdf t) (j + 1) - getR (ct_cdf t) j)) (ce_nmu d) k mu /\
    -1 <= mu <= 1.
Proof.
  intros a d E xi y x z ds M N2 VT XI X Z0. destruct (make_cedc_shape a true d M ltac:(lia)) as [S EU]. unfold cedc_sample. rewrite EU. cbn [negb]. apply cedc_unit_spec; assumption.
Qed.
(** without it, the table of the nearer incident energy e is used and h is shifted: h (2 E / e - 1) below e / 2, h + E - e above;
    the energy is not negative for E at least half of the first incident energy *)
Theorem C47_nearest_partial : forall a d E xi x z ds, make_cedc a false = Ok d -> (2 <= sizeZ (ce_in d))%Z -> (forall t, In t (ce_tables d) -> valid_ct (ce_nmu d) t) -> 0 <= xi < 1 -> 0 <= x < 1 -> 0 <= z < 1 ->
  exists l f i t h j k mu Eo, bracket (ce_in d) E l f /\ i = nearest_of l f /\ atZ (ce_tables d) i = Ok t /\
    cedc_sample d E (xi :: x :: z :: ds) = Ok ((mu, Eo), ds) /\
    Eo = shifted h (getR (ce_in d) i) E /\
    first_of (ct_energy t) <= h <= last_of (ct_energy t) /\ is_RInt (dens (ct_energy t) (ct_pdf t) (ct_cdf t) LinLin) (first_of (ct_energy t)) h xi /\
    (0 <= j)%Z /\ (j + 1 < sizeZ (ct_energy t))%Z /\ getR (ct_cdf t) j <= xi <= getR (ct_cdf t) (j + 1) /\ kth (ce_nmu d) x k /\
    in_cosine_bin (nth (Z.to_nat j) (ct_cos t) []) (nth (Z.to_nat (j + 1)) (ct_cos t) []) ((xi - getR (ct_cdf t) j) / (getR (ct_cdf t) (j + 1) - getR (ct_cdf t) j)) (ce_nmu d) k mu /\
    -1 <= mu <= 1 /\ (0 < getR (ce_in d) 0 -> getR (ce_in d) 0 <= 2 * E -> 0 <= Eo).
Proof.
  intros a d E xi x z ds M N2 VT XI X Z0. destruct (make_cedc_shape a false d M ltac:(lia)) as [S EU]. unfold cedc_sample. rewrite EU. cbn [negb]. apply cedc_nearest_spec; assumption.
Qed.
Example C47_hypotheses_met : exists a u d, make_cedc a u = Ok d /\ u = true /\ (2 <= sizeZ (ce_in d))%Z /\ (forall t, In t (ce_tables d) -> valid_ct (ce_nmu d) t) /\ (forall t, In t (ce_tables d) -> (2 <= sizeZ (ct_energy t))%Z).
Proof. exact cedc_example. Qed.
(** accepted data of other kinds, in binary64: energies outside the table, one outgoing energy, NaN, negative energies *)
Theorem C47_inconsistent_cdf_refuted : forall lm, exists d, @make_cedc _ (NumF lm) (cedc_ace 2 (en 0 0.125 0 ++ en 1 0.125 1)) true = Ok d /\
  @cedc_sample _ (NumF lm) d 1%float [0.5; 0.5; 0.25; 0.5]%float = Ok ((-0.5, 4)%float, []).
Proof. exact bad_cdf_energy. Qed.
Theorem C47_one_outgoing_energy_refuted : forall lm, exists d, @make_cedc _ (NumF lm) (cedc_ace 1 (en 1 1 0)) true = Ok d /\
  @cedc_sample _ (NumF lm) d 1%float [0.5; 0.5; 0.25; 0.5]%float = UB.
Proof. exact one_energy_UB. Qed.
Theorem C47_zero_density_refuted : forall lm, exists d mu E, @make_cedc _ (NumF lm) (cedc_ace 3 (en 0 0 0 ++ en 1 0 0 ++ en 2 2 1)) true = Ok d /\
  @cedc_sample _ (NumF lm) d 1%float [0; 0.5; 0.25; 0.5]%float = Ok ((mu, E), []) /\ PrimFloat.is_nan mu = true /\ PrimFloat.is_nan E = true.
Proof. exact zero_pdf_nan. Qed.
Theorem C47_negative_energy_refuted : forall lm, exists d, @make_cedc _ (NumF lm) (cedc_ace 2 (en 0 1 0 ++ en 1 1 1)) false = Ok d /\
  @cedc_sample _ (NumF lm) d 0.25%float [0.25; 0.25; 0.5]%float = Ok ((-0.5, -0.125)%float, []).
Proof. exact nearest_negative. Qed.

(** ** C70.  Incoherent elastic scattering *)
Theorem C70_sample_partial : forall a d E x z ds, make_inco a = Ok d -> (2 <= sizeZ (ie_in d))%Z -> 0 <= x < 1 -> 0 <= z < 1 ->
  exists l f k mu, bracket (ie_in d) E l f /\ 0 <= f <= 1 /\ kth (ie_nmu d) x k /\
    inco_sample d E (x :: z :: ds) = Ok ((mu, E), ds) /\
    in_cosine_bin (nth (Z.to_nat l) (ie_cos d) []) (nth (Z.to_nat (l + 1)) (ie_cos d) []) f (ie_nmu d) k mu /\ -1 <= mu <= 1.
Proof. intros a d E x z ds M N2. apply inco_sample_spec; [apply (make_inco_valid a d M); lia|exact N2]. Qed.
Theorem C70_xs : forall a d, make_inco a = Ok d -> nxs a 4 <> 4%Z -> jxs a 3 <> 0%Z -> (0 < sizeZ (ie_in d))%Z -> strictly_increasing (ie_in d) ->
  exists y, inco_tab a (ie_in d) y /\ forall E, exists w, inco_xs d E = Ok w /\ lin_table (ie_in d) y E w /\ 0 <= w.
Proof.
  intros a d M N J S SI. destruct (make_inco_tab a d M N J) as (x & y & TX & TE & TT & SY & SX & NN). subst x. exists y. split; [exact TX|]. intros E.
  destruct (tab1_lin (ie_in d) y _ TT ltac:(lia) SI E) as (w & W & L). exists w. split; [exact W|]. split; [exact L|]. eapply lin_table_nonneg; eauto.
Qed.
Theorem C70_absent : forall a, (nxs a 4 = 4 \/ jxs a 3 = 0)%Z -> exists d, make_inco a = Ok d /\ (forall E, inco_xs d E = Ok 0) /\ (forall E ds, inco_sample d E ds = Throw).
Proof. intros a H. destruct (make_inco_absent a H) as (d & M & D & Z0). exists d. split; [exact M|]. split; [exact Z0|]. intros E ds. unfold inco_sample. rewrite D. reflexivity. Qed.
(** a single incident energy is accepted, and sampling then reads past the table *)
Theorem C70_one_incident_energy_refuted : forall a d E x z ds, make_inco a = Ok d -> sizeZ (ie_in d) = 1%Z -> 0 <= x < 1 -> inco_sample d E (x :: z :: ds) = UB.
Proof. intros a d E x z ds M S. apply inco_sample_single; [apply (make_inco_valid a d M); lia|exact S]. Qed.
Example C70_hypotheses_met : exists a d, make_inco a = Ok d /\ (2 <= sizeZ (ie_in d))%Z /\ strictly_increasing (ie_in d) /\ nxs a 4 <> 4%Z /\ jxs a 3 <> 0%Z.
Proof. exact inco_example. Qed.
Example C70_one_energy_hypotheses_met : exists a d, make_inco a = Ok d /\ sizeZ (ie_in d) = 1%Z.
Proof. exact inco_example1. Qed.

(** ** C71.  The thermal scattering law *)
Theorem C71_parts : forall a u t, make_tsl a u = Ok t -> make_inin a u = Ok (t_inel t) /\ make_inco a = Ok (t_inc t) /\ make_coh a = Ok (t_coh t) /\
  t_zaid t = a_zaid a /\ t_awr t = a_awr a /\ t_temp t = a_temperature a /\
  (t_has_coh t = true <-> jxs a 3 <> 0%Z /\ nxs a 4 = 4%Z) /\ (t_has_inc t = true <-> jxs a 3 <> 0%Z /\ nxs a 4 <> 4%Z).
Proof. exact make_tsl_parts. Qed.
Theorem C71_total_xs : forall a u t E, make_tsl a u = Ok t -> (0 < sizeZ (t_x (ii_xs (t_inel t))))%Z -> strictly_increasing (t_x (ii_xs (t_inel t))) ->
  (t_has_inc t = true -> (0 < sizeZ (ie_in (t_inc t)))%Z /\ strictly_increasing (ie_in (t_inc t))) ->
  exists x y s1 s2 s3, inel_tab a x y /\ lin_table x y E s1 /\ coh_xs (t_coh t) E = Ok s3 /\ tsl_xs t E = Ok (s1 + s2 + s3) /\
    (t_has_inc t = false -> s2 = 0) /\ (t_has_coh t = false -> s3 = 0) /\
    (t_has_inc t = true -> exists x' y', inco_tab a x' y' /\ lin_table x' y' E s2 /\ 0 <= s2).
Proof. exact tsl_xs_spec. Qed.
Theorem C71_dispatch : forall a u t E ds, make_tsl a u = Ok t -> (exists d, make_dce a = Ok d /\ (nxs a 6 = 0 \/ nxs a 6 = 1)%Z /\ inin_sample (t_inel t) E ds = dce_sample d E ds) \/
  (exists d, make_cedc a u = Ok d /\ nxs a 6 = 2%Z /\ inin_sample (t_inel t) E ds = cedc_sample d E ds).
Proof. exact inin_dispatch. Qed.
(** without an elastic block (JXS(4) = 0) but with the coherent flag (NXS(5) = 4) construction reads XSS out of range *)
Theorem C71_no_elastic_block_refuted : forall a u ii, make_inin a u = Ok ii -> nxs a 4 = 4%Z -> jxs a 3 = 0%Z -> make_tsl a u = UB.
Proof. exact tsl_no_block_UB. Qed.
Example C71_hypotheses_met : exists a u t, make_tsl a u = Ok t /\ (0 < sizeZ (t_x (ii_xs (t_inel t))))%Z /\ strictly_increasing (t_x (ii_xs (t_inel t))) /\ t_has_coh t = false /\ t_has_inc t = false.
Proof. exact tsl_example. Qed.
Example C71_refuted_hypotheses_met : exists a u ii, make_inin a u = Ok ii /\ nxs a 4 = 4%Z /\ jxs a 3 = 0%Z.
Proof. exact tsl_example2. Qed.

Print Assumptions C45_accepted_edges.
Print Assumptions C45_xs_partial.
Print Assumptions C45_no_edges.
Print Assumptions C45_at_most_one_last_edge.
Print Assumptions C45_at_first_edge_refuted.
Print Assumptions C45_at_last_edge.
Print Assumptions C45_sample_partial.
Print Assumptions C45_sample_below.
Print Assumptions C46_accepted_tables.
Print Assumptions C46_equiprobable.
Print Assumptions C46_skewed.
Print Assumptions C46_probabilities.
Print Assumptions C47_accepted_tables.
Print Assumptions C47_safe_partial.
Print Assumptions C47_unit_based_partial.
Print Assumptions C47_nearest_partial.
Print Assumptions C47_inconsistent_cdf_refuted.
Print Assumptions C47_one_outgoing_energy_refuted.
Print Assumptions C47_zero_density_refuted.
Print Assumptions C47_negative_energy_refuted.
Print Assumptions C70_sample_partial.
Print Assumptions C70_xs.
Print Assumptions C70_absent.
Print Assumptions C70_one_incident_energy_refuted.
Print Assumptions C71_parts.
Print Assumptions C71_total_xs.
Print Assumptions C71_dispatch.
Print Assumptions C71_no_elastic_block_refuted.
