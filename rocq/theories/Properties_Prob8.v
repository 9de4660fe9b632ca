(** * C95: thermal scattering samples with the tabulated probabilities *)
From Coq Require Import Reals Lra Lia List ZArith ZifyBool ZifyNat. From Coquelicot Require Import Coquelicot.
From Verif Require Import Base NumR L_SearchR M_Ace M_OutE M_PC S_PC M_Thermal S_Prob S_OutE S_Thermal S_ThermalLaw L_Search L_Thermal L_Thermal2 L_ThermalEx L_OutE L_ProbLaw L_ProbPick L_ProbTherm L_ProbTherm2 L_ProbTherm3 L_ProbTherm4.
Import ListNotations.
Local Open Scope R_scope.

(** Coherent elastic scattering, above the first edge: the Bragg edge m below the incident energy scatters into its cosine 1 - 2 E_m / E, at the incident energy,
    with probability (S_m - S_(m-1)) / S_l, its share of the cumulated structure factors. [B] is any decidable set of pairs (cosine, energy). *)
Theorem C95_coherent : forall a c E l (B : R * R -> Prop) (dec : forall v, {B v} + {~ B v}), make_coh a = Ok c -> increasing (c_sum c) -> 0 <= getR (c_sum c) 0 -> last_edge_below (c_edges c) E l -> 0 < getR (c_sum c) l ->
  law (coh_sample c E) B (sum_of (l + 1) (fun m => structure_step (c_sum c) m / getR (c_sum c) l * one_if (dec (1 - 2 * getR (c_edges c) m / E, E)))).
Proof. intros a c E l B dec M. exact (coh_law c E l B dec (make_coh_valid a c M)). Qed.
Print Assumptions C95_coherent.
(** Discrete outgoing energies and cosines: every cosine index is equally probable, the energy index has its weight (equal, or 1, 4, 10, ..., 10, 4, 1), and the two are independent; the values are interpolated between the neighbouring incident energies *)
Theorem C95_discrete : forall a d E i1 i2 f (B : R * R -> Prop) (dec : forall v, {B v} + {~ B v}), make_dce a = Ok d -> (0 < sizeZ (d_in d))%Z -> (0 < d_noe d)%Z -> (0 < d_nmu d)%Z -> neighbours (d_in d) E i1 i2 f ->
  law (dce_sample d E) B (sum_of (d_nmu d) (fun k => sum_of (d_noe d) (fun j => energy_weight (d_skewed d) (d_noe d) j *
    one_if (dec (mix f (dce_cos d i1 j k) (dce_cos d i2 j k), mix f (dce_energy d i1 j) (dce_energy d i2 j))))) / IZR (d_nmu d)).
Proof. intros a d E i1 i2 f B dec M H1 H2 H3. exact (dce_law d E i1 i2 f B dec (make_dce_valid a d M H1 H2 H3)). Qed.
Print Assumptions C95_discrete.
(** there are neighbours at every incident energy, and the weights add up to one *)
Theorem C95_discrete_total : forall a d E, make_dce a = Ok d -> (0 < sizeZ (d_in d))%Z -> (0 < d_noe d)%Z -> (0 < d_nmu d)%Z ->
  (exists i1 i2 f, neighbours (d_in d) E i1 i2 f) /\ sum_of (d_noe d) (energy_weight (d_skewed d) (d_noe d)) = 1.
Proof.
  intros a d E M H1 H2 H3. pose proof (make_dce_valid a d M H1 H2 H3) as V. split.
  - destruct (dce_after d E 0 0 [] V ltac:(lia) ltac:(lia)) as (i1 & i2 & f & mu & NB & _). exists i1, i2, f. exact NB.
  - exact (energy_weight_total d V).
Qed.
Print Assumptions C95_discrete_total.
(** Incoherent elastic scattering: each of the equally probable interpolated cosines is spread uniformly over the room it has; the energy is the incident energy *)
Theorem C95_incoherent : forall a d E, make_inco a = Ok d -> (2 <= sizeZ (ie_in d))%Z -> exists l f, bracket (ie_in d) E l f /\ 0 <= f <= 1 /\ forall c,
  let row1 := nth (Z.to_nat l) (ie_cos d) [] in let row2 := nth (Z.to_nat (l + 1)) (ie_cos d) [] in
  law (inco_sample d E) (fun v => fst v <= c /\ snd v = E) (sum_of (ie_nmu d) (fun k => uniform_below (cos_at row1 row2 f k) (cosine_room row1 row2 f (ie_nmu d) k) c) / IZR (ie_nmu d)).
Proof. intros a d E M N. exact (inco_law d E (make_inco_valid a d M ltac:(lia)) N). Qed.
Print Assumptions C95_incoherent.
(** Continuous outgoing energies, unit based: the outgoing energy has the mixture of the two tabulated densities (linear between the points), each stretched to the interpolated limits *)
Theorem C95_unit_based : forall a d E l f t1 t2 p1 p2, make_cedc a true = Ok d -> (2 <= sizeZ (ce_in d))%Z -> (forall t, In t (ce_tables d) -> valid_ct (ce_nmu d) t) -> bracket (ce_in d) E l f -> atZ (ce_tables d) l = Ok t1 -> atZ (ce_tables d) (l + 1) = Ok t2 ->
  tabulated t1 p1 -> tabulated t2 p2 ->
  let a1 := first_of (ct_energy t1) in let a2 := first_of (ct_energy t2) in let b1 := last_of (ct_energy t1) in let b2 := last_of (ct_energy t2) in let lo := mix f a1 a2 in let hi := mix f b1 b2 in
  law (cedc_sample d E) (fun v => -1 <= fst v <= 1 /\ lo <= snd v <= hi) 1 /\ forall e, lo <= e <= hi -> exists q, law (cedc_sample d E) (fun v => snd v <= e) q /\
    is_RInt (fun x => (1 - f) * stretched p1 a1 b1 lo hi x + f * stretched p2 a2 b2 lo hi x) lo e q.
Proof. intros a d E l f t1 t2 p1 p2 M N. destruct (make_cedc_shape a true d M ltac:(lia)) as [S U]. exact (cedc_unit_law d E l f t1 t2 p1 p2 S U N). Qed.
Print Assumptions C95_unit_based.
(** ... and with the nearest table: an outgoing energy of that table is at most h with the tabulated probability, and is shifted to the incident energy, which keeps the order when E > e/2 *)
Theorem C95_nearest : forall a d E l f t p, make_cedc a false = Ok d -> (2 <= sizeZ (ce_in d))%Z -> (forall t, In t (ce_tables d) -> valid_ct (ce_nmu d) t) -> bracket (ce_in d) E l f -> atZ (ce_tables d) (nearest_of l f) = Ok t ->
  let e := getR (ce_in d) (nearest_of l f) in tabulated t p -> 0 < e -> e / 2 < E ->
  law (cedc_sample d E) (fun v => -1 <= fst v <= 1 /\ shifted (first_of (ct_energy t)) e E <= snd v <= shifted (last_of (ct_energy t)) e E) 1 /\ forall h, first_of (ct_energy t) <= h <= last_of (ct_energy t) ->
    exists q, law (cedc_sample d E) (fun v => snd v <= shifted h e E) q /\ is_RInt p (first_of (ct_energy t)) h q.
Proof. intros a d E l f t p M N. destruct (make_cedc_shape a false d M ltac:(lia)) as [S U]. exact (cedc_near_law d E l f t p S U N). Qed.
Print Assumptions C95_nearest.

(** ** the hypotheses are met *)
Definition eq2 (u : R * R) (v : R * R) : {v = u} + {v <> u}.
Proof. destruct u as [u1 u2], v as [v1 v2]. destruct (Req_EM_T v1 u1) as [->|N]; [destruct (Req_EM_T v2 u2) as [->|N]|]; [left; reflexivity|right; congruence|right; congruence]. Defined.
Example C95_coherent_example : law (coh_sample (mkCoh [1; 4] [3; 5]) 5) (fun v => v = (1 - 2 * 1 / 5, 5)) (3 / 5).
Proof.
  destruct coh_example as (M & I & P & _). eapply law_val; [|apply (C95_coherent coh_ex (mkCoh [1; 4] [3; 5]) 5 1 _ (eq2 (1 - 2 * 1 / 5, 5)) M I P)].
  - unfold sum_of. change (Z.to_nat (1 + 1)) with 2%nat. cbn [sum_to]. change (Z.of_nat 0) with 0%Z. change (Z.of_nat 1) with 1%Z. cbn [c_sum c_edges]. change (structure_step [3; 5] 0) with 3. change (structure_step [3; 5] 1) with (5 - 3).
    change (getR [1; 4] 0) with 1. change (getR [1; 4] 1) with 4. change (getR [3; 5] 1) with 5. destruct (eq2 (1 - 2 * 1 / 5, 5) (1 - 2 * 1 / 5, 5)); [|congruence]. destruct (eq2 (1 - 2 * 1 / 5, 5) (1 - 2 * 4 / 5, 5)) as [Q|Q]; [injection Q; lra|]. unfold one_if. field.
  - split; [change (0 <= 1 < 2)%Z; lia|]. change (getR (c_edges (mkCoh [1; 4] [3; 5])) 1) with 4. split; [lra|]. change (sizeZ (c_edges (mkCoh [1; 4] [3; 5]))) with 2%Z. lia.
  - change (0 < 5). lra.
Qed.
Example C95_discrete_example : law (dce_sample dce_ex (3 / 2)) (fun v => snd v <= 5 / 2) (1 / 2).
Proof.
  destruct dce_example as (a & M & H1 & H2 & H3). assert (NB : neighbours (d_in dce_ex) (3 / 2) 0 1 (1 / 2)).
  { split; [change (0 <= 0 < 2)%Z; lia|]. split; [change (0 <= 1 < 2)%Z; lia|]. split; [lra|]. right; right. change (getR (d_in dce_ex) 0) with 1. change (getR (d_in dce_ex) 1) with 2. split; [reflexivity|]. unfold mix. lra. }
  eapply law_val; [|exact (C95_discrete a dce_ex (3 / 2) 0 1 (1 / 2) (fun v => snd v <= 5 / 2) (fun v => Rle_dec (snd v) (5 / 2)) M H1 H2 H3 NB)].
  unfold sum_of. change (Z.to_nat (d_nmu dce_ex)) with 2%nat. change (Z.to_nat (d_noe dce_ex)) with 2%nat. cbn [sum_to snd]. change (Z.of_nat 0) with 0%Z. change (Z.of_nat 1) with 1%Z. change (d_skewed dce_ex) with false. change (d_noe dce_ex) with 2%Z. change (d_nmu dce_ex) with 2%Z.
  change (dce_energy dce_ex 0 0) with 1. change (dce_energy dce_ex 1 0) with 3. change (dce_energy dce_ex 0 1) with 2. change (dce_energy dce_ex 1 1) with 4. unfold energy_weight, mix, one_if.
  destruct (Rle_dec ((1 - 1 / 2) * 1 + 1 / 2 * 3) (5 / 2)) as [A|A]; [|lra]. destruct (Rle_dec ((1 - 1 / 2) * 2 + 1 / 2 * 4) (5 / 2)) as [B|B]; [lra|]. field.
Qed.
Example C95_incoherent_example : exists a d, make_inco a = Ok d /\ (2 <= sizeZ (ie_in d))%Z.
Proof. destruct inco_example as (a & d & M & N & _). exists a, d. split; [exact M|exact N]. Qed.
Example C95_unit_based_example : exists q, law (cedc_sample cedc_ok (3 / 2)) (fun v => snd v <= 1 / 4) q /\ q = 1 / 4.
Proof.
  assert (Tb : tabulated ct_ex (fun _ => 1)). { intros j x J0 J1 _. change (sizeZ (ct_energy ct_ex)) with 2%Z in J1. assert (j = 0)%Z as -> by lia. change (getR (ct_pdf ct_ex) 0) with 1. change (getR (ct_pdf ct_ex) (0 + 1)) with 1. unfold mix. ring. }
  assert (Br : bracket (ce_in cedc_ok) (3 / 2) 0 (1 / 2)).
  { split; [lia|]. split; [change (0 + 1 < 2)%Z; lia|]. right; right. change (getR (ce_in cedc_ok) 0) with 1. change (getR (ce_in cedc_ok) (0 + 1)) with 2. split; [lra|field]. }
  assert (Hv : forall t, In t (ce_tables cedc_ok) -> valid_ct (ce_nmu cedc_ok) t) by (intros t [<-|[<-|[]]]; exact ct_ex_valid).
  destruct (C95_unit_based (cedc_exR 0 0) cedc_ok (3 / 2) 0 (1 / 2) ct_ex ct_ex (fun _ => 1) (fun _ => 1) (cedc_make 0 0) ltac:(change (2 <= 2)%Z; lia) Hv Br eq_refl eq_refl Tb Tb) as [_ H].
  change (first_of (ct_energy ct_ex)) with 0 in H. change (last_of (ct_energy ct_ex)) with 1 in H. destruct (H (1 / 4)) as (q & L & I); [unfold mix; lra|]. exists q. split; [exact L|].
  assert (J : @is_RInt R_NormedModule (fun x => (1 - 1 / 2) * stretched (fun _ => 1) 0 1 (mix (1 / 2) 0 0) (mix (1 / 2) 1 1) x + 1 / 2 * stretched (fun _ => 1) 0 1 (mix (1 / 2) 0 0) (mix (1 / 2) 1 1) x) (mix (1 / 2) 0 0) (1 / 4) (1 / 4)).
  { eapply L_Prob.iR_eq; [|apply L_ProbEv.iR_const_on with (u := 1)]; [unfold mix; lra|unfold mix; lra|]. intros x _. unfold stretched, mix. field. }
  transitivity (RInt (fun x => (1 - 1 / 2) * stretched (fun _ => 1) 0 1 (mix (1 / 2) 0 0) (mix (1 / 2) 1 1) x + 1 / 2 * stretched (fun _ => 1) 0 1 (mix (1 / 2) 0 0) (mix (1 / 2) 1 1) x) (mix (1 / 2) 0 0) (1 / 4)); [symmetry|]; apply (@is_RInt_unique R_CompleteNormedModule); assumption.
Qed.
