(** * C72-C77: secondary distributions read from an ACE file *)
From Coq Require Import Reals Lra Lia List ZifyBool ZifyNat.
From Verif Require Import Base NumR L_Search L_SearchR M_Interp M_Tab1D M_Func M_Grid M_PC M_OutE M_Spectra M_Kin M_Ace M_Neutron M_Laws S_Neutron S_Laws L_Grid L_Angle L_Kin L_Neutron L_Laws L_Laws2 L_Laws3 L_Laws4 L_Laws5 L_Ace L_LawsEx L_NeutronEx NumF L_KinF L_LawsF.
Import ListNotations.
Local Open Scope R_scope.

(** ** C72: each table and law of the file is the object its numbers describe *)
(** full claim: for every supported law. Law 5 and locator 0 of law 61 are misread (below); unsorted energies of law 4 are accepted *)
Theorem C72_laws_partial : forall a angle q law block d j, law_layout a angle q law block d -> holds a j block -> make_law a angle q law j = Ok d.
Proof. intros a angle q law b d j. exact (make_law_read a angle q law b d j). Qed.
Print Assumptions C72_laws_partial.
Theorem C72_energy_laws_partial : forall a JED law block e j, energy_layout a JED law block e -> holds a j block -> energy_law a law j JED = Some (Ok e).
Proof. intros a JED law b e j. exact (energy_law_read a JED law b e j). Qed.
Print Assumptions C72_energy_laws_partial.
(** the numbers of a tabulated density are checked exactly as by the vector constructor (also when they are rejected) *)
(** the object made for a law is asked through the common interface; it gives the answers of the distribution itself *)
Theorem C72_interface :
  (forall (d : kal R) E, ae_sample (kal_law d) E = kal_sample d E /\ (forall mu, ae_angle_pdf (kal_law d) E mu = let! p := kal_angle_pdf d E mu in Ok (Some p)) /\
     forall mu Eo, ae_pdf (kal_law d) E mu Eo = let! p := kal_pdf d E mu Eo in Ok (Some p)) /\
  (forall (d : tea R) E, ae_sample (tea_law d) E = tea_sample d E /\ (forall mu, ae_angle_pdf (tea_law d) E mu = let! p := tea_angle_pdf d E mu in Ok (Some p)) /\
     forall mu Eo, ae_pdf (tea_law d) E mu Eo = let! p := tea_pdf d E mu Eo in Ok (Some p)) /\
  (forall (d : nbody R) E, ae_sample (nbody_law d) E = nb_sample d E /\ (forall mu, ae_angle_pdf (nbody_law d) E mu = Ok (Some (1 / 2))) /\ forall mu Eo, ae_pdf (nbody_law d) E mu Eo = Ok (Some (nb_pdf d E Eo))) /\
  (forall (d : uncor R) E, ae_sample (uncor_law d) E = uc_sample d E /\ (forall mu, ae_angle_pdf (uncor_law d) E mu = uc_angle_pdf d E mu) /\ forall mu Eo, ae_pdf (uncor_law d) E mu Eo = uc_pdf d E mu Eo) /\
  (forall (d : multi R) E, ae_sample (multi_law d) E = md_sample d E /\ (forall mu, ae_angle_pdf (multi_law d) E mu = md_angle_pdf d E mu) /\ forall mu Eo, ae_pdf (multi_law d) E mu Eo = md_pdf d E mu Eo) /\
  (forall (d : ebins R) E, el_sample (ebins_law d) E = eb_sample d E /\ forall Eo, el_pdf (ebins_law d) E Eo = let! p := eb_pdf d E Eo in Ok (Some p)) /\
  (forall (d : tabe R) E, el_sample (tabe_law d) E = te_sample d E /\ forall Eo, el_pdf (tabe_law d) E Eo = let! p := te_pdf d E Eo in Ok (Some p)) /\
  (forall (d : gevap R) E, el_sample (gevap_law d) E = ge_sample d E /\ forall Eo, el_pdf (gevap_law d) E Eo = let! p := ge_pdf d E Eo in Ok (Some p)) /\
  (forall (d : watt R) E, el_sample (watt_law d) E = w_sample d E /\ forall Eo, el_pdf (watt_law d) E Eo = let! p := w_pdf d E Eo in Ok (Some p)) /\
  (forall (t : tab R) u E, el_sample (mw_law (t, u)) E = mw_sample (tab_eval t) u E /\ forall Eo, el_pdf (mw_law (t, u)) E Eo = let! p := mw_pdf (tab_eval t) u E Eo in Ok (Some p)) /\
  (forall (t : tab R) u E, el_sample (ev_law (t, u)) E = ev_sample (tab_eval t) u E /\ forall Eo, el_pdf (ev_law (t, u)) E Eo = let! p := ev_pdf (tab_eval t) u E Eo in Ok (Some p)) /\
  (forall (d : level R) E, el_sample (level_law d) E = lv_sample d E /\ forall Eo, el_pdf (level_law d) E Eo = Ok None) /\
  (forall (d : dphoton R) E, el_sample (dphoton_law d) E = dp_sample d E /\ forall Eo, el_pdf (dphoton_law d) E Eo = Ok None).
Proof. repeat split; reflexivity. Qed.
Print Assumptions C72_interface.
Theorem C72_density : forall a i interp values pdf cdf, table_interp interp = true -> length pdf = length values -> length cdf = length values -> u32 (sizeZ values) ->
  holds a i (table_block interp values [pdf; cdf]) -> pc_of_ace a i 1 = make_pc values pdf cdf interp.
Proof. intros a i it v p c. exact (pc_read a i it v p c). Qed.
Print Assumptions C72_density.
Theorem C72_kalbach_table : forall a i interp values pdf cdf r s, table_interp interp = true -> length pdf = length values -> length cdf = length values -> length r = length values -> length s = length values ->
  u32 (sizeZ values) -> holds a i (table_block interp values [pdf; cdf; r; s]) -> kt_of_ace a i = make_kt values pdf cdf r s interp.
Proof. intros a i it v p c r s. exact (kt_read a i it v p c r s). Qed.
Print Assumptions C72_kalbach_table.
(** general evaporation (law 5): the bounds are read one entry early, so the count is taken for the first bound *)
Theorem C72_general_evaporation_refuted : exists bounds d, holds exr 0 (tab_block [] [] [1; 2] [1/2; 1/2] ++ IZR (sizeZ bounds) :: bounds) /\ gevap_of_ace exr 0 = Ok d /\ bounds = [4; 5; 6] /\ ge_bounds d = [3; 4; 5].
Proof.
  destruct exr_gevap_bounds as (d & E & B). exists [4; 5; 6], d. split; [hold 0%nat 10%nat|]. split; [exact E|]. split; [reflexivity|exact B].
Qed.
Print Assumptions C72_general_evaporation_refuted.
(** for every file: the bounds read are the count followed by all the bounds but the last *)
Theorem C72_general_evaporation_always : forall a i NBT INT energy y bounds d, regions_ok NBT INT -> (sizeZ energy < 2 ^ 31)%Z -> length y = length energy -> u32 (sizeZ bounds) ->
  holds a i (tab_block NBT INT energy y ++ IZR (sizeZ bounds) :: bounds) -> gevap_of_ace a i = Ok d -> ge_bounds d = removelast (IZR (sizeZ bounds) :: bounds).
Proof.
  intros a i NBT INT energy y bounds d RO SE LY UB H G. rewrite (gevap_read a i NBT INT energy y bounds RO SE LY UB H) in G.
  destruct (guard _); try discriminate. cbn [bind] in G. apply L_Search.bind_ok in G as (t & _ & G). injection G as <-. reflexivity.
Qed.
Print Assumptions C72_general_evaporation_always.
(** tabular energies (law 4): incident energies 2, 1 are accepted from a file and rejected by the vector constructor *)
Theorem C72_unsorted_refuted : exists d, tabe_of_ace exr 18 0 = Ok d /\ te_in d = [2; 1] /\ make_tabe (te_in d) (te_tables d) = Throw.
Proof. destruct exr_tabe as [E1 E2]. exists (mkTabE [2; 1] [ex_pc; ex_pc]). split; [exact E1|]. split; [reflexivity|exact E2]. Qed.
Print Assumptions C72_unsorted_refuted.
(** law 61: locator 0 (isotropic in the ACE format) is followed to the entry before the DLW block *)
Theorem C72_isotropic_refuted : holds exr 24 (table_block Histogram [0; 1] [[1; 1]; [0; 1]; nums [0; 0]%Z]) /\ eat_of_ace exr 24 (DLW exr) = Throw.
Proof. split; [hold 24%nat 34%nat|exact exr_locator_0]. Qed.
Print Assumptions C72_isotropic_refuted.
Example C72_cases : (exists d, make_law exk (Some iso) 0 4 30 = Ok d) /\ (exists d, make_law exk None 0 44 36 = Ok d) /\ (exists d, make_law exk None 0 61 42 = Ok d) /\
  (exists d, make_law exk (Some iso) 0 1 48 = Ok d) /\ (exists d, make_law exk (Some iso) 0 7 57 = Ok d) /\ (exists d, make_law exk (Some iso) 0 11 64 = Ok d).
Proof.
  destruct (ex_tabular 0 eq_refl) as [A1 A2]. destruct (ex_kalbach None 0) as [B1 B2]. destruct (ex_tea None 0) as [C1 C2]. destruct (ex_ebins (DLW exk)) as [D1 D2]. destruct (ex_maxwell (DLW exk)) as (t & E1 & E2). destruct (ex_watt (DLW exk)) as (t' & F1 & F2).
  split; [eexists; refine (make_law_read _ _ _ 4 _ _ 30 _ A2); eapply ll_energy; [reflexivity|exact A1]|].
  split; [eexists; exact (make_law_read _ _ _ _ _ _ _ B1 B2)|]. split; [eexists; exact (make_law_read _ _ _ _ _ _ _ C1 C2)|].
  split; [eexists; refine (make_law_read _ _ _ 1 _ _ 48 _ D2); eapply ll_energy; [reflexivity|exact D1]|].
  split; [eexists; refine (make_law_read _ _ _ 7 _ _ 57 _ E2); eapply ll_energy; [reflexivity|exact E1]|].
  eexists; refine (make_law_read _ _ _ 11 _ _ 64 _ F2); eapply ll_energy; [reflexivity|exact F1].
Qed.

(** ** C73: angular distributions *)
Theorem C73_read : forall a locb energy locs laws, (0 < locb)%Z -> locator_ok (AND a) locb -> u32 (sizeZ energy) ->
  holds a (AND a + locb - 1) ([IZR (sizeZ energy)] ++ energy ++ nums locs) -> length locs = length energy -> Forall (locator_ok (AND a)) locs -> Forall2 (angle_layout a) locs laws ->
  adist_of_ace a locb = make_adist energy laws.
Proof. intros a locb energy locs laws. exact (adist_read a locb energy locs laws). Qed.
Print Assumptions C73_read.
Theorem C73_isotropic : forall a, exists d, adist_of_ace a 0 = Ok d /\ ad_laws d = [isotropic].
Proof. intros a. exists (mkADist [/ 100000] [isotropic]). split; [exact (adist_isotropic a)|reflexivity]. Qed.
Print Assumptions C73_isotropic.
Theorem C73_negative : forall a locb, (locb < 0)%Z -> adist_of_ace a locb = Throw (A := adist R).
Proof. exact adist_negative. Qed.
Print Assumptions C73_negative.
(** elastic scattering uses the first locator of the LAND block *)
Theorem C73_elastic : forall a locb d, entry a (LAND a) (IZR locb) -> (0 <= locb < 2 ^ 31)%Z -> adist_layout a locb (Some d) -> load_elastic_angle a = Ok d.
Proof.
  intros a locb d E B L. unfold load_elastic_angle. assert (B' : (- 2 ^ 31 <= locb < 2 ^ 31)%Z) by lia. rewrite (entry_i32 _ _ _ B' E). cbn [bind]. apply adist_layout_read in L. replace (0 <=? locb)%Z with true in L by lia.
  apply L_Search.bind_ok in L as (x & E1 & E2). injection E2 as <-. exact E1.
Qed.
Print Assumptions C73_elastic.
Example C73_case : adist_layout exk 111 (Some (mkADist [1; 2] [angle_bins ub; angle_table ex_pc])).
Proof. exact ex_adist. Qed.

(** ** C74: the reaction for an MT is the one the file describes *)
(** lookup returns the last entry of the file with that MT *)
Theorem C74_entry : forall NB a n mt r, neutron_of_ace NB a = Ok n -> neutron_reaction n mt = Ok r ->
  exists k, (0 <= k < wrap32 (nxs a 3))%Z /\ xss_u32 a (MTR a + k) = Ok mt /\ (forall k', (k < k' < wrap32 (nxs a 3))%Z -> xss_u32 a (MTR a + k') <> Ok mt) /\ reaction_of_ace a k (n_grid n) = Ok r.
Proof.
  intros NB a n mt r H G. destruct (which_reaction _ _ _ _ NB a n mt r H G) as (k & (B & M & L) & K). unfold nmt in *.
  assert (W : Z.of_nat (Z.to_nat (wrap32 (nxs a 3))) = wrap32 (nxs a 3)). { apply Z2Nat.id. unfold wrap32. apply Z.mod_pos_bound. lia. } rewrite W in *.
  exists k. split; [exact B|]. split; [exact M|]. split; [exact L|exact K].
Qed.
Print Assumptions C74_entry.
(** an object derived from [n0] and a second file: the reaction of [n0] with the cross section and threshold of the second file *)
Theorem C74_entry_derived : forall NB a n0 n mt r, make_neutron_from (absorption_law (T := R)) NB a n0 = Ok n -> neutron_reaction n mt = Ok r ->
  exists k r0, (0 <= k < wrap32 (nxs a 3))%Z /\ xss_u32 a (MTR a + k) = Ok mt /\ neutron_reaction n0 mt = Ok r0 /\
    read_reaction_xs a k (n_grid n) = Ok (rx_xs r, rx_threshold r) /\ rx_mt r = rx_mt r0 /\ rx_q r = rx_q r0 /\ rx_awr r = rx_awr r0 /\ rx_yield r = rx_yield r0 /\ rx_dist r = rx_dist r0.
Proof.
  intros NB a n0 n mt r H G. destruct (which_reaction_from _ NB a n0 n mt r H G) as (k & r0 & (B & M & L) & G0 & K). unfold nmt in *.
  assert (W : Z.of_nat (Z.to_nat (wrap32 (nxs a 3))) = wrap32 (nxs a 3)). { apply Z2Nat.id. unfold wrap32. apply Z.mod_pos_bound. lia. } rewrite W in *.
  exists k, r0. split; [exact B|]. split; [exact M|]. split; [exact G0|]. unfold make_reaction_from in K. apply L_Search.bind_ok in K as (u & _ & K). apply L_Search.bind_ok in K as ([x th] & Ex & K).
  injection K as <-. split; [exact Ex|]. repeat (split; [reflexivity|]). reflexivity.
Qed.
Print Assumptions C74_entry_derived.
(** the numbers: MT, Q value, and the atomic weight ratio of the file's header *)
Theorem C74_numbers : forall a indx g mt q y r, reaction_entries a indx mt q y -> reaction_of_ace a indx g = Ok r -> rx_mt r = mt /\ rx_q r = q /\ rx_awr r = a_awr a.
Proof. intros a indx g mt q y r HE. exact (make_reaction_numbers load_neutron absorption_law a indx g mt q y HE r). Qed.
Print Assumptions C74_numbers.
(** cross section: the file's values from the file's first energy on, zero below; threshold: that first energy *)
Theorem C74_cross_section : forall a indx i1 vals g r, (sizeZ (g_vals g) < 2 ^ 32)%Z -> reaction_xs a indx i1 vals -> reaction_of_ace a indx g = Ok r ->
  (i1 - 1 + sizeZ vals = sizeZ (g_vals g))%Z /\ (i1 - 1 < sizeZ (g_vals g))%Z /\ Forall (fun v => 0 <= v) vals /\ rx_threshold r = getR (g_vals g) (i1 - 1) /\ x_grid (rx_xs r) = g /\
  (forall i, (0 <= i < i1 - 1)%Z -> xs_at (rx_xs r) i = Ok 0) /\ (forall k, (0 <= k < sizeZ vals)%Z -> xs_at (rx_xs r) (i1 - 1 + k) = Ok (getR vals k)).
Proof. intros a indx i1 vals g r. exact (reaction_xs_spec load_neutron absorption_law a indx i1 vals g r). Qed.
Print Assumptions C74_cross_section.
(** yield: |TYR| below 100, else the table at the locator |TYR| - 100 of the DLW block *)
Theorem C74_yield_constant : forall a indx g mt q y r E, reaction_entries a indx mt q y -> Rabs y < 100 -> reaction_of_ace a indx g = Ok r -> feval (rx_yield r) E = Ok (Rabs y).
Proof. intros a indx g mt q y r E HE HY H. exact (yield_constant a y _ E HY (make_reaction_yield load_neutron absorption_law a indx g mt q y HE r H)). Qed.
Print Assumptions C74_yield_constant.
Theorem C74_yield_table : forall a indx g mt q y r k t NBT INT energy yields, reaction_entries a indx mt q y -> (100 <= k < 2 ^ 63)%Z -> Rabs y = IZR k -> tab_layout t NBT INT energy yields ->
  holds a (DLW a + k - 101) (tab_block NBT INT energy yields) -> reaction_of_ace a indx g = Ok r -> rx_yield r = FTab t.
Proof.
  intros a indx g mt q y r k t NBT INT energy yy HE BK EY TL H HR. pose proof (make_reaction_yield load_neutron absorption_law a indx g mt q y HE r HR) as Y.
  rewrite (yield_table a y k t NBT INT energy yy BK EY TL H) in Y. injection Y as <-. reflexivity.
Qed.
Print Assumptions C74_yield_table.
(** secondary distribution: the law, or the mixture of the laws in the order of the file; in the centre-of-mass frame iff TYR < 0 *)
Theorem C74_distribution : forall a indx g mt q y laws r, reaction_entries a indx mt q y -> reaction_laws a indx q laws -> reaction_of_ace a indx g = Ok r ->
  exists d, combined laws d /\ (0 < y -> rx_dist r = d) /\ (y < 0 -> rx_dist r = cm_law (a_awr a) q d).
Proof. intros a indx g mt q y laws r. exact (reaction_dist_spec absorption_law a indx g mt q y laws r). Qed.
Print Assumptions C74_distribution.
(** TYR = 0: no secondary neutron, sampling at or above the threshold throws *)
Theorem C74_absorption : forall a indx g mt q r E ds, reaction_entries a indx mt q 0 -> reaction_of_ace a indx g = Ok r -> rx_threshold r <= E -> reaction_sample r E ds = Throw.
Proof.
  intros a indx g mt q r E ds HE H L. apply (make_reaction_dist load_neutron absorption_law a indx g mt q 0 HE) in H. rewrite (proj2 (Reqb_true 0 0) eq_refl) in H. injection H as H.
  unfold reaction_sample. rnum. rewrite (proj2 (Rltb_false _ _) L). rewrite <- H. reflexivity.
Qed.
Print Assumptions C74_absorption.
(** sampling: {0, 0} below the threshold without consuming a draw, the secondary distribution at the threshold and above *)
Theorem C74_below_threshold : forall (r : reaction R) E ds, E < rx_threshold r -> reaction_sample r E ds = Ok ((0, 0), ds).
Proof. intros r E ds L. unfold reaction_sample. rnum. rewrite (proj2 (Rltb_true _ _) L). reflexivity. Qed.
Print Assumptions C74_below_threshold.
Theorem C74_above_threshold : forall (r : reaction R) E ds, rx_threshold r <= E -> reaction_sample r E ds = ae_sample (rx_dist r) E ds.
Proof. intros r E ds L. unfold reaction_sample. rnum. rewrite (proj2 (Rltb_false _ _) L). reflexivity. Qed.
Print Assumptions C74_above_threshold.
(** every reaction laid out like this is accepted *)
Theorem C74_accepted : forall a indx g mt q y laws i1 vals, reaction_entries a indx mt q y -> Rabs y < 100 -> (y <> 0 -> reaction_laws a indx q laws) -> (sizeZ (g_vals g) < 2 ^ 32)%Z ->
  reaction_xs a indx i1 vals -> (i1 - 1 + sizeZ vals = sizeZ (g_vals g))%Z -> vals <> [] -> Forall (fun v => 0 <= v) vals -> exists r, reaction_of_ace a indx g = Ok r.
Proof. exact reaction_accepted. Qed.
Print Assumptions C74_accepted.
Example C74_case : exists r d1 d2 t, reaction_entries (exl (-1) 10) 0 91 (-1) (-1) /\ reaction_xs (exl (-1) 10) 0 1 [5; 6] /\ reaction_laws (exl (-1) 10) 0 (-1) [(d1, t); (d2, t)] /\
  reaction_of_ace (exl (-1) 10) 0 exl_grid = Ok r.
Proof.
  destruct (exl_reaction (-1)) as [r E]; [rewrite Rabs_left; lra|]. destruct (exl_laws (-1)) as (d1 & d2 & t & L). exists r, d1, d2, t.
  split; [apply exl_entries|]. split; [apply exl_xs|]. split; [exact L|exact E].
Qed.
Example C74_case_object : exists n r, neutron_of_ace 1 (ex 102) = Ok n /\ neutron_reaction n 102 = Ok r.
Proof.
  destruct (ex_neutron load_neutron absorption_law load_delayed_law iso) as (n & r & Hn & K). exists n, r. split; [|tauto]. rewrite <- Hn. unfold neutron_of_ace, make_neutron.
  assert (E : load_elastic_angle (ex 102) = Ok iso).
  { unfold load_elastic_angle. rewrite (entry_i32 _ _ 0) by (lia || hold 9%nat 10%nat). cbn [bind]. exact (adist_isotropic (ex 102)). }
  rewrite E. reflexivity.
Qed.

(** ** C75: unsupported laws are rejected, and loading ends *)
Theorem C75_unknown_law : forall a angle q law j, ~ In law [1; 2; 3; 4; 5; 7; 9; 11; 44; 61; 66]%Z -> make_law (T := R) a angle q law j = Throw.
Proof. intros a angle q law j H. apply make_law_unknown. unfold known_law, plain_law. cbn [existsb]. cbn in H. lia. Qed.
Print Assumptions C75_unknown_law.
Theorem C75_no_angles : forall a q law j, In law [1; 2; 3; 4; 5; 7; 9; 11]%Z -> make_law (T := R) a None q law j = Throw.
Proof. intros a q law j H. apply make_law_no_angle. unfold plain_law. cbn [existsb]. cbn in H. lia. Qed.
Print Assumptions C75_no_angles.
(** reading the list of laws: more turns than the file has numbers means that it never ends; a result found with any number of turns is the result *)
Theorem C75_terminates_partial : forall a angle q i, (forall n, law_loop n a angle q i = NoDraw) \/ law_loop (S (length (a_xss a))) a angle q i <> NoDraw.
Proof.
  intros a angle q i. destruct (law_loop (S (length (a_xss a))) a angle q i) eqn:E; try (right; discriminate). left. exact (law_loop_forever a angle q i E).
Qed.
Print Assumptions C75_terminates_partial.
Theorem C75_turns : forall a angle q n i r, law_loop n a angle q i = r -> r <> NoDraw -> law_loop (S (length (a_xss a))) a angle q i = r.
Proof. intros a angle q n i r. exact (law_loop_enough a angle q n i r). Qed.
Print Assumptions C75_turns.
Example C75_case : make_law (T := R) (exl 1 10) (Some iso) 0 22 30 = Throw /\ make_law (T := R) (exl 1 10) None 0 3 30 = Throw /\ exists r, reaction_of_ace (exl 1 10) 0 exl_grid = Ok r.
Proof.
  split; [apply C75_unknown_law; cbn; lia|]. split; [apply C75_no_angles; cbn; lia|]. apply exl_reaction. rewrite Rabs_right; lra.
Qed.
(** a file whose first law names itself as the next one: the constructor returns after no number of turns *)
Theorem C75_cycle_refuted : forall g n, make_reaction (fun a i _ => load_neutron_fuel n a i) absorption_law (exl 1 1) 0 g = NoDraw.
Proof. intros g n. apply exl_cycle_reaction; [lra|rewrite Rabs_right; lra]. Qed.
Print Assumptions C75_cycle_refuted.

(** ** C76: cosines of file reactions *)
Theorem C76_lab : forall a indx g mt q y r, reaction_entries a indx mt q y -> 0 < y -> reaction_of_ace a indx g = Ok r ->
  forall E ds mu e ds', (forall x, In x ds -> 0 <= x < 1) -> reaction_sample r E ds = Ok ((mu, e), ds') -> -1 <= mu <= 1.
Proof.
  intros a indx g mt q y r HE P H E ds mu e ds' D S. apply (make_reaction_dist load_neutron absorption_law a indx g mt q y HE) in H.
  replace (Reqb y 0) with false in H by (symmetry; apply Reqb_false; lra). replace (Rltb y 0) with false in H by (symmetry; apply Rltb_false; lra).
  apply load_cosine in H. unfold reaction_sample in S. destruct (nltb E (rx_threshold r)).
  - unfold rret in S. injection S as <- _ _. rnum. lra.
  - exact (H E ds mu e ds' D S).
Qed.
Print Assumptions C76_lab.
(** full claim: the same for a reaction given in the centre of mass. Proved: the lab sample is the transform of a sample with a
    cosine in [-1,1]; its cosine lies in [-1,1] when the centre-of-mass energy is not negative and the lab energy is positive *)
Theorem C76_cm_partial : forall a indx g mt q y r, reaction_entries a indx mt q y -> y < 0 -> reaction_of_ace a indx g = Ok r ->
  forall E ds mu e ds', (forall x, In x ds -> 0 <= x < 1) -> rx_threshold r <= E -> reaction_sample r E ds = Ok ((mu, e), ds') ->
  exists mu_cm e_cm, -1 <= mu_cm <= 1 /\ (mu, e) = cm_to_lab E (a_awr a) mu_cm e_cm /\ (0 < a_awr a -> 0 <= E -> 0 <= e_cm -> 0 <= e /\ (0 < e -> -1 <= mu <= 1)).
Proof.
  intros a indx g mt q y r HE P H E ds mu e ds' D TH S. apply (make_reaction_dist load_neutron absorption_law a indx g mt q y HE) in H.
  replace (Reqb y 0) with false in H by (symmetry; apply Reqb_false; lra). replace (Rltb y 0) with true in H by (symmetry; apply Rltb_true; lra).
  rewrite C74_above_threshold in S by exact TH. destruct (load_cm _ _ _ _ _ _ _ _ _ _ _ H D S) as (m & c & M & Q). exists m, c. split; [exact M|]. split; [exact Q|].
  intros PA PE PC. destruct (cm_to_lab_spec E (a_awr a) m c mu e PA PE PC M (eq_sym Q)) as [X Y]. split; [exact X|]. intros Pe. apply Y. exact Pe.
Qed.
Print Assumptions C76_cm_partial.
(** in binary64 the condition on the centre-of-mass energy is needed: a file whose cross section starts below the threshold of its level law is accepted, and at such an energy
    (not below the reaction's threshold) the negative centre-of-mass energy makes the cosine NaN *)
Theorem C76_below_level_refuted : exists r mu e, @reaction_of_ace PrimFloat.float (NumF lm_ex) level_ace 0 level_grid = Ok r /\ PrimFloat.leb (rx_threshold r) PrimFloat.one = true /\
  @reaction_sample PrimFloat.float (NumF lm_ex) r PrimFloat.one [0.25%float] = Ok ((mu, e), []) /\ PrimFloat.is_nan mu = true.
Proof. exact level_nan. Qed.
Print Assumptions C76_below_level_refuted.
(** the example file in both frames: a run through its level-scattering law at 3 MeV *)
Example C76_case : forall y, y = 1 \/ y = -1 -> exists r mu e, reaction_entries (exl y 10) 0 91 (-1) y /\ reaction_of_ace (exl y 10) 0 exl_grid = Ok r /\ rx_threshold r <= 3 /\
  reaction_sample r 3 [1/4; 3/4] = Ok ((mu, e), []).
Proof.
  intros y Hy. assert (Y : Rabs y < 100) by (destruct Hy as [-> | ->]; [rewrite Rabs_right|rewrite Rabs_left]; lra). destruct (exl_reaction y Y) as [r E].
  assert (T : rx_threshold r <= 3). { destruct (C74_cross_section (exl y 10) 0 1 [5; 6] exl_grid r ltac:(cbn; lia) (exl_xs y 10) E) as (_ & _ & _ & -> & _). change (1 <= 3). lra. }
  destruct (exl_laws_first y) as (d2 & t & L & Et). destruct (C74_distribution (exl y 10) 0 exl_grid 91 (-1) y _ r (exl_entries y 10) L E) as (d & C & D1 & D2).
  destruct C as [(p & C)|[_ ->]]; [discriminate|]. 
  set (d1 := uncor_law _) in *.
  assert (P : tab_eval t 3 = Ok (1/2)) by (apply exl_half; [exact Et|lra]).
  assert (S : forall q, ae_sample (multi_law (mkMD (map fst [(d1, t); (d2, t)]) (map (fun p : aelaw R * tab R => tab_eval (snd p)) [(d1, t); (d2, t)]))) 3 (1/4 :: q) = ae_sample d1 3 q).
  { intros q. cbn [ae_sample multi_law]. unfold md_sample. cbn [md_dists md_probs map fst snd]. unfold rbind at 1. cbn [draw bind md_loop]. unfold rbind at 1, rlift at 1. rewrite P. cbn [bind]. change (@nltb R NumR) with Rltb. rnum. rewrite (proj2 (Rltb_true _ _)) by lra. reflexivity. }
  assert (S1 : ae_sample d1 3 [3/4] = Ok ((1/2, 1/2), [])).
  { unfold d1. cbn [ae_sample uncor_law]. unfold uc_sample. cbn [uc_angle uc_energy]. assert (A : adist_sample iso 3 [3/4] = Ok (1/2, [])) by (apply iso_sample3). unfold rbind at 1. rewrite A. cbn [bind el_sample level_law]. unfold lv_sample, rbind, rret. cbn [bind lv_C1 lv_C2]. rnum. f_equal. f_equal. f_equal. lra. }
  assert (Q : exists mu e, ae_sample (rx_dist r) 3 [1/4; 3/4] = Ok ((mu, e), [])).
  { destruct Hy as [-> | ->].
    - rewrite D1 by lra. exists (1/2), (1/2). rewrite S. exact S1.
    - rewrite D2 by lra. cbn [cm_law ae_sample]. unfold cm_sample. unfold rbind. fold (@ae_sample R). destruct (cm_to_lab 3 (a_awr (exl (-1) 10)) (1/2) (1/2)) as [mu e] eqn:EC. exists mu, e. pose proof (S [3/4]) as S0. cbn [ae_sample] in S0, S1. rewrite S0, S1. cbn [bind rret]. rewrite EC. reflexivity. }
  destruct Q as (mu & e & Q). exists r, mu, e. split; [apply exl_entries|]. split; [exact E|]. split; [exact T|]. rewrite C74_above_threshold by exact T. exact Q.
Qed.

(** ** C77: delayed neutron families *)
(** full claim: also for families whose energy law is number 5 (misread, C72) *)
Theorem C77_families_partial : forall a fs blocks, (0 < BDD a)%Z -> nxs a 7 = sizeZ fs -> (sizeZ fs < 2 ^ 32)%Z -> families_layout a 1 fs blocks -> holds a (BDD a) blocks -> make_families load_delayed_law a = Ok fs.
Proof. exact make_families_read. Qed.
Print Assumptions C77_families_partial.
Theorem C77_unknown_law : forall a g locc next law idat, u32 locc -> u32 idat -> (- 2 ^ 31 <= next < 2 ^ 31)%Z -> (- 2 ^ 31 <= law < 2 ^ 31)%Z -> ~ In law [1; 4; 5; 7; 9; 11]%Z ->
  entry a (DNEDL a + g - 1) (IZR locc) -> holds a (DNED a + locc - 1) [IZR next; IZR law; IZR idat] -> load_delayed_law a g = Throw.
Proof. exact delayed_law_unknown. Qed.
Print Assumptions C77_unknown_law.
(** law 5 (general evaporation) is accepted and misread, for every file: the family's spectrum has the number of bounds as its first bound and lacks the last one *)
Theorem C77_general_evaporation_refuted : forall a g locc next idat NBT INT energy y bounds e, u32 locc -> u32 idat -> (- 2 ^ 31 <= next < 2 ^ 31)%Z ->
  entry a (DNEDL a + g - 1) (IZR locc) -> holds a (DNED a + locc - 1) [IZR next; 5; IZR idat] -> regions_ok NBT INT -> (sizeZ energy < 2 ^ 31)%Z -> length y = length energy -> u32 (sizeZ bounds) ->
  holds a (DNED a + idat - 1) (tab_block NBT INT energy y ++ IZR (sizeZ bounds) :: bounds) -> load_delayed_law a g = Ok e ->
  exists d, e = gevap_law d /\ ge_bounds d = removelast (IZR (sizeZ bounds) :: bounds).
Proof.
  intros a g locc next idat NBT INT energy y bounds e Ul Ui Un EL HB RO SE LY UB H G. unfold load_delayed_law in G. rewrite (entry_u32 _ _ _ Ul EL) in G. cbn [bind] in G.
  rewrite (holds_i32 _ _ _ _ Un HB) in G. cbn [bind] in G. apply L_Ace.holds_cons in HB as [_ HB]. rewrite (holds_i32 _ _ 5 _ ltac:(lia) HB) in G. cbn [bind] in G. apply holds_cons in HB as [_ HB].
  replace (DNED a + locc - 1 + 1 + 1)%Z with (DNED a + locc - 1 + 2)%Z in HB by lia. rewrite (holds_u32 _ _ _ _ Ui HB) in G. cbn [bind] in G. change ((5 =? 2) || (5 =? 3))%Z%bool with false in G. cbv iota in G.
  change (energy_law a 5 (DNED a + idat - 1) (DNED a)) with (Some (let! d := gevap_of_ace a (DNED a + idat - 1) in Ok (gevap_law d))) in G. cbv iota in G. apply L_Search.bind_ok in G as (d & E & G). exists d. split; [injection G as <-; reflexivity|].
  exact (C72_general_evaporation_always a (DNED a + idat - 1) NBT INT energy y bounds d RO SE LY UB H E).
Qed.
Print Assumptions C77_general_evaporation_refuted.
Definition exd : ace R := mkAce 1001%Z 2 300 false (repeat 0%Z 16) [0; 0; 0; 0; 0; 0; 0; 0; 0; 0; 0; 0; 0; 0; 0; 0; 0; 0; 0; 0; 0; 0; 0; 0; 0; 1; 2; 0; 0; 0; 0; 0]%Z ([1] ++ [0; 5; 4] ++ half_block ++ [3; 4; 5; 6]).
Example C77_general_evaporation_case : exists d, load_delayed_law exd 1 = Ok (gevap_law d) /\ ge_bounds d = [3; 4; 5].
Proof.
  assert (H : holds exd (DNED exd + 4 - 1) (tab_block [] [] [1; 2] [1/2; 1/2] ++ IZR (sizeZ [4; 5; 6]) :: [4; 5; 6])) by (hold 4%nat 14%nat).
  destruct half_tab as [t Et]. assert (G : exists d, gevap_of_ace exd (DNED exd + 4 - 1) = Ok d).
  { rewrite (gevap_read _ _ [] [] [1; 2] [1/2; 1/2] [4; 5; 6]); try exact reg0; try (unfold u32; cbn; lia); try reflexivity; try exact H.
    change (removelast (IZR (sizeZ [4; 5; 6]) :: [4; 5; 6])) with [3; 4; 5]. replace (@is_sorted R NumR [3; 4; 5]) with true by (cbn; rdec; reflexivity). cbn [guard bind]. rewrite Et. cbn [bind]. eexists. reflexivity. }
  destruct G as (d & G). exists d. split; [|exact (C72_general_evaporation_always exd _ [] [] [1; 2] [1/2; 1/2] [4; 5; 6] d reg0 ltac:(cbn; lia) eq_refl ltac:(unfold u32; cbn; lia) H G)].
  unfold load_delayed_law. rewrite (entry_u32 exd _ 1) by (unfold u32; lia || hold 0%nat 1%nat). cbn [bind]. change (DNED exd + 1 - 1)%Z with 1%Z.
  rewrite (holds_i32 exd 1 0 [5; 4]) by (lia || hold 1%nat 4%nat). cbn [bind]. rewrite (holds_i32 exd (1 + 1) 5 [4]) by (lia || hold 2%nat 4%nat). cbn [bind]. rewrite (holds_u32 exd (1 + 2) 4 []) by (unfold u32; lia || hold 3%nat 4%nat). cbn [bind].
  change ((5 =? 2) || (5 =? 3))%Z%bool with false. cbv iota. change (energy_law exd 5 (DNED exd + 4 - 1) (DNED exd)) with (Some (let! d := gevap_of_ace exd (DNED exd + 4 - 1) in Ok (gevap_law d))). cbv iota. rewrite G. reflexivity.
Qed.
(** the families reach the fission object as read *)
Theorem C77_fission : forall load absorb a g f, make_fission load absorb load_delayed_law a g = Ok f -> a_fissile a = true -> make_families load_delayed_law a = Ok (f_families f).
Proof.
  intros load absorb a g f H F. unfold make_fission in H. apply L_Search.bind_ok in H as (ns & _ & H). rewrite F in H. apply L_Search.bind_ok in H as (fam & E & H).
  apply L_Search.bind_ok in H as (s & _ & H). apply L_Search.bind_ok in H as (ps & _ & H). injection H as <-. exact E.
Qed.
Print Assumptions C77_fission.
Example C77_case : exists f, families_layout exk 1 [f] (1/4 :: half_block) /\ make_families load_delayed_law exk = Ok [f].
Proof.
  destruct ex_families as (f & L & H). exists f. split; [exact L|]. refine (make_families_read exk [f] _ _ _ _ L H); [unfold BDD; cbn; lia|reflexivity|cbn; lia].
Qed.
