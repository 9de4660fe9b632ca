(** * Constants, columns, layouts and orders pinned down independently of the model (C18, C43, C51, C52, C65, C67, C81) *)
From Coq Require Import Reals Lra Lia List Permutation Sorted Ascii String ZifyBool ZifyNat.
From Verif Require Import Base NumR L_SearchR M_Interp M_Grid M_Ident M_PC M_Ace M_Neutron M_Kin M_AceBin S_AceBin M_Library S_Neutron L_KinE L_Tight L_Tight2 L_Tight3 L_Tight4 M_Span M_Thermal.
Import ListNotations.
Local Open Scope R_scope.

(** ** C65: the block accessors are the ACE manual's blocks, as zero-based positions in XSS *)
Theorem C65_block_pointers : forall a : ace R,
  (ESZ a = JXS a 1 - 1 /\ NU a = JXS a 2 - 1 /\ MTR a = JXS a 3 - 1 /\ LQR a = JXS a 4 - 1 /\ TYR a = JXS a 5 - 1 /\ LSIG a = JXS a 6 - 1 /\ SIG a = JXS a 7 - 1 /\
   LAND a = JXS a 8 - 1 /\ AND a = JXS a 9 - 1 /\ LDLW a = JXS a 10 - 1 /\ DLW a = JXS a 11 - 1 /\ GPD a = JXS a 12 - 1 /\ LUNR a = JXS a 23 - 1 /\ DNU a = JXS a 24 - 1 /\
   BDD a = JXS a 25 - 1 /\ DNEDL a = JXS a 26 - 1 /\ DNED a = JXS a 27 - 1)%Z.
Proof. intros a. repeat split. Qed.
Print Assumptions C65_block_pointers.
Theorem C65_entries : forall (a : ace R) k, jxs a k = JXS a (k + 1) /\ nxs a k = NXS a (k + 1) /\ (forall pre x post, a_xss a = pre ++ x :: post -> xss a (sizeZ pre) = Ok x).
Proof.
  intros a k. unfold JXS, NXS, jxs, nxs. rewrite Nat.add_sub. split; [reflexivity|]. split; [reflexivity|]. intros pre x post E. unfold xss. rewrite E.
  rewrite L_Search.atZ_app_r by lia. rewrite Z.sub_diag. reflexivity.
Qed.
Print Assumptions C65_entries.

(** ** C81: the columns behind the energy grid are total, disappearance, elastic and heating; heating may be negative, the others are checked *)
Theorem C81_columns_accepted : forall a g tot dis ela hea, (NXS a 3 = sizeZ (g_vals g))%Z -> (0 <= NXS a 3 < 2 ^ 29)%Z -> Forall (fun c => sizeZ c = sizeZ (g_vals g)) [tot; dis; ela; hea] ->
  Forall (Forall (fun v => 0 <= v)) [tot; dis; ela] -> JXS a 12 = 0%Z -> (0 < sizeZ (g_vals g))%Z ->
  holds a (JXS a 1 - 1) (g_vals g ++ tot ++ dis ++ ela ++ hea) ->
  exists pho, read_main_xs a g = Ok (mkXs g tot 0 false, mkXs g dis 0 false, mkXs g ela 0 false, mkXs g hea 0 false, pho).
Proof. exact main_columns. Qed.
Print Assumptions C81_columns_accepted.

(** ** C43: what the setters do, field by field; temperatures are in kelvin, kT in MeV, 1 eV being 11604.51812 K *)
Theorem C43_setters_take_effect : forall (e : elastic_obj R) t u b,
  (let e' := fst (set_temperature e t) in e_kT e' = t / 11604518120 /\ elastic_temperature e' = t /\ e_angle e' = e_angle e /\ e_awr e' = e_awr e /\ e_use_tar e' = e_use_tar e /\ e_tar e' = e_tar e /\ e_brd e' = e_brd e) /\
  (let e' := fst (set_use_tar e u) in e_use_tar e' = u /\ e_kT e' = e_kT e /\ e_angle e' = e_angle e /\ e_awr e' = e_awr e /\ e_tar e' = e_tar e /\ e_brd e' = e_brd e) /\
  (let e' := fst (set_tar_threshold e t) in e_tar e' = t /\ e_kT e' = e_kT e /\ e_angle e' = e_angle e /\ e_awr e' = e_awr e /\ e_use_tar e' = e_use_tar e /\ e_brd e' = e_brd e) /\
  (let e' := fst (set_brd e (Some b)) in e_brd e' = b /\ e_kT e' = e_kT e /\ e_angle e' = e_angle e /\ e_awr e' = e_awr e /\ e_use_tar e' = e_use_tar e /\ e_tar e' = e_tar e).
Proof.
  intros e t u b. cbn [set_temperature set_use_tar set_tar_threshold set_brd fst e_kT e_angle e_awr e_use_tar e_tar e_brd]. unfold elastic_temperature. cbn [e_kT set_temperature fst]. rewrite K_to_MeV_value.
  repeat split; rnum; field.
Qed.
Print Assumptions C43_setters_take_effect.
Theorem C43_constructor_stores : forall brd angle awr temp use_tar tar (e : elastic_obj R), make_elastic brd angle awr temp use_tar tar = Ok e ->
  e_angle e = angle /\ e_awr e = awr /\ e_kT e = temp / 11604518120 /\ elastic_temperature e = temp /\ e_use_tar e = use_tar /\ e_tar e = tar /\ brd = Some (e_brd e).
Proof.
  intros brd angle awr temp use_tar tar e H. unfold make_elastic in H. destruct (nleb awr _); [discriminate|]. destruct (nltb (K_to_MeV temp) _); [discriminate|]. destruct (nltb tar _); [discriminate|].
  destruct brd as [b|]; [|discriminate]. injection H as <-. cbn [e_angle e_awr e_kT e_use_tar e_tar e_brd]. unfold elastic_temperature. cbn [e_kT]. rewrite ?K_to_MeV_value. repeat split; rnum; field.
Qed.
Print Assumptions C43_constructor_stores.

(** ** C18: the default AngleDistribution is isotropic at every incident energy *)
Theorem C18_default_is_isotropic : forall E : R, ad_energy (@adist_default R NumR) = [/ 100000000000; 200] /\
  (forall mu, -1 <= mu <= 1 -> adist_pdf adist_default E mu = Ok (1 / 2)) /\
  (forall x y ds, 0 <= x < 1 -> 0 <= y < 1 -> exists mu, In mu [2 * x - 1; 2 * y - 1] /\ exists ds', adist_sample adist_default E (x :: y :: ds) = Ok (mu, ds') /\ (ds' = ds \/ ds' = y :: ds)).
Proof. exact default_dist. Qed.
Print Assumptions C18_default_is_isotropic.

(** ** C51: the hash of a nuclide is the hash of its ZAID *)
Theorem C51_nuclide_hash_is_zaid_hash : forall h n, nuclide_hash h n = zaid_hash h (nuclide_zaid n).
Proof. exact nuclide_hash_zaid. Qed.
Print Assumptions C51_nuclide_hash_is_zaid_hash.

(** ** C52: a saved file is a sequence of records, each between two copies of its length in bytes: the 500-byte header and the XSS array in
    records of 512 numbers (the last may be shorter) *)
Theorem C52_saved_layout : forall a, well_formed a -> exists h recs, fst (save_binary a) = rec_bytes h ++ flat_map rec_bytes recs /\ length h = 500%nat /\ concat recs = flat_map (le 8) (f_xss a) /\
  Forall (fun d => (0 < length d)%nat) recs /\ Forall (fun d => (length d <= 4096)%nat) recs /\ Forall (fun d => length d = 4096%nat) (removelast recs) /\
  h = f_zaid_txt a ++ le 8 (f_awr a) ++ le 8 (over (f_temperature a) kelvin_factor) ++ f_date a ++ f_comment a ++ f_mat a ++
      flat_map (fun p => le 4 (fst p mod 2 ^ 32) ++ le 8 (snd p)) (f_izaw a) ++ flat_map (fun z => le 4 (z mod 2 ^ 32)) (f_nxs a) ++ flat_map (fun z => le 4 (z mod 2 ^ 32)) (f_jxs a).
Proof. exact saved_layout. Qed.
Print Assumptions C52_saved_layout.

(** ** C67: symbols are listed in the order of atomic number, then mass number *)
Theorem C67_listing_order : forall (lib : @library R) syms, list_STNeutron lib = Ok syms ->
  exists zs, Permutation zs (map fst (lib_neutron lib)) /\ StronglySorted (fun a b => za_Z a < za_Z b \/ za_Z a = za_Z b /\ za_A a <= za_A b)%Z zs /\ Forall2 (fun z s => zaid_symbol z = Ok s) zs syms.
Proof. intros lib syms. exact (listing_order lib syms). Qed.
Print Assumptions C67_listing_order.

(** ** C99: a tabulated density below zero is accepted, as zero, only when it is round-off (smaller than 1e-15 in magnitude) *)
Theorem C99_negative_densities : forall p : R,
  (0 <= p -> M_Thermal.fix_pdf p = Ok p) /\ (- / 1000000000000000 < p < 0 -> M_Thermal.fix_pdf p = Ok 0) /\ (p <= - / 1000000000000000 -> M_Thermal.fix_pdf p = Throw).
Proof.
  intros p. unfold M_Thermal.fix_pdf, nlit. rnum. split; [|split]; intros H; destruct (Rltb_spec p 0) as [L|L]; try lra; [reflexivity| |]; rewrite Rabs_left by lra.
  - idtac. destruct (Rltb_spec (- p) (1 / 1000000000000000)) as [L'|L']; [reflexivity|lra].
  - destruct (Rltb_spec (- p) (1 / 1000000000000000)) as [L'|L']; [lra|reflexivity].
Qed.
Print Assumptions C99_negative_densities.

(** ** C58: the constant of the laboratory angle relation: the speed of the centre of mass over the speed of the product in it *)
Theorem C58_speed_ratio : forall Ein A Q : R, 0 < Ein -> 0 < A -> 0 < A * Ein / (A + 1) + Q ->
  0 < cm_gamma Ein A Q /\ (A * cm_gamma Ein A Q) ^ 2 * (A * Ein / (A + 1) + Q) = A * Ein / (A + 1).
Proof.
  intros Ein A Q HE HA HQ. unfold cm_gamma. rnum. assert (C : 0 < A * Ein / (A + 1)) by (apply Rdiv_lt_0_compat; [apply Rmult_lt_0_compat; assumption|lra]).
  assert (G : 0 < 1 / (A * A) * (A * Ein / (A + 1) / (A * Ein / (A + 1) + Q))).
  { apply Rmult_lt_0_compat; apply Rdiv_lt_0_compat; try lra. apply Rmult_lt_0_compat; assumption. }
  split; [apply sqrt_lt_R0; exact G|]. rewrite Rpow_mult_distr, pow2_sqrt by lra. set (e := A * Ein / (A + 1)) in *. field. split; lra.
Qed.
Print Assumptions C58_speed_ratio.

(** ** C02: inverting a histogram gives the left end of its interval *)
Theorem C02_histogram_invert : forall y x1 y1 x2 y2 : R, M_Interp.invert Histogram y x1 y1 x2 y2 = x1.
Proof. reflexivity. Qed.
Print Assumptions C02_histogram_invert.

(** ** C65: numbers read as unsigned integers are truncated toward zero; what does not fit is undefined *)
Theorem C65_integers_truncate : forall (x : R) z, trunc_u32 x = Ok z <-> ((0 <= z < 2 ^ 32)%Z /\ IZR z <= x < IZR z + 1) \/ (z = 0%Z /\ - (1) < x < 0).
Proof. exact L_Tight3.trunc_u32_iff. Qed.
Print Assumptions C65_integers_truncate.

(** ** C67: a thermal table name is made of letters, digits, underscores and hyphens *)
Theorem C67_tsl_characters : forall c, is_tsl_char c = true <-> In c (String.list_ascii_of_string "ABCDEFGHIJKLMNOPQRSTUVWXYZabcdefghijklmnopqrstuvwxyz0123456789_-"%string).
Proof. exact L_Tight3.tsl_characters. Qed.
Print Assumptions C67_tsl_characters.

(** ** C07: linearising an object is undefined exactly when it is not already lin-lin and the storage its views point into is gone *)
Theorem C07_linearize_undefined_iff : forall h i d realloc, M_Span.objs h i = Some d ->
  (M_Span.step h (M_Span.Linearize i realloc) = UB <-> M_Span.lin d = false /\ M_Span.live h (M_Span.view d) = false) /\ M_Span.step h (M_Span.Linearize i realloc) <> Throw.
Proof.
  intros h i d r E. cbn [M_Span.step]. rewrite E. destruct (M_Span.lin d), (M_Span.live h (M_Span.view d)); cbn [negb]; split; try discriminate; split; try discriminate; try (intros [? ?]; congruence); auto.
Qed.
Print Assumptions C07_linearize_undefined_iff.

(** ** C74: a reaction taken over from an existing object keeps everything but the cross section, which is the file's (and nothing else can reject it) *)
Theorem C74_derived_reaction : forall (a : ace R) i g r r', make_reaction_from a i g r = Ok r' <->
  exists x th, read_reaction_xs a i g = Ok (x, th) /\ r' = mkReac (rx_mt r) (rx_q r) (rx_awr r) th (rx_yield r) (rx_dist r) x.
Proof.
  intros a i g r r'. unfold make_reaction_from. rewrite Z.eqb_refl. cbn [bind]. split.
  - intros H. destruct (read_reaction_xs a i g) as [[x th]| | |]; try discriminate H. injection H as <-. exists x, th. split; reflexivity.
  - intros (x & th & -> & ->). reflexivity.
Qed.
Print Assumptions C74_derived_reaction.

(** ** C08: initial points and values must be equally many and the points sorted *)
Theorem C08_rejects : forall adj fuel ix iy (f : R -> R) tol, (length ix <> length iy -> M_Tab1D.linearize adj fuel ix iy f tol = Throw) /\
  (length ix = length iy -> ~ increasing ix -> M_Tab1D.linearize adj fuel ix iy f tol = Throw).
Proof.
  intros adj fuel ix iy f tol. unfold M_Tab1D.linearize. split.
  - intros H. rewrite (proj2 (PeanoNat.Nat.eqb_neq _ _) H). reflexivity.
  - intros H NI. rewrite H, PeanoNat.Nat.eqb_refl. cbn [guard bind]. destruct (is_sorted ix) eqn:E; [|reflexivity]. exfalso. apply NI. apply is_sorted_increasing. exact E.
Qed.
Print Assumptions C08_rejects.

(** ** C65: numbers read as signed integers are truncated toward zero; what does not fit is undefined *)
Theorem C65_signed_truncate : forall (x : R) z, trunc_i32 x = Ok z <-> (- 2 ^ 31 <= z < 2 ^ 31)%Z /\ (0 <= x /\ IZR z <= x < IZR z + 1 \/ x < 0 /\ IZR z - 1 < x <= IZR z).
Proof. exact L_Tight4.trunc_i32_iff. Qed.
Print Assumptions C65_signed_truncate.
Example C65_signed_truncate_nonvacuous : trunc_i32 (- (7 / 2)) = Ok (-3)%Z.
Proof. apply C65_signed_truncate. split; [lia|]. right. split; lra. Qed.

(** ** C65: a table in a distribution block has interpolation code 1 (histogram) or 2 (linear-linear) *)
Theorem C65_table_codes : forall (a : ace R) i c, xss_u32 a i = Ok c ->
  (c = 1%Z -> M_Laws.table_code a i = Ok Histogram) /\ (c = 2%Z -> M_Laws.table_code a i = Ok LinLin) /\ (c <> 1%Z -> c <> 2%Z -> M_Laws.table_code a i = Throw).
Proof. exact L_Tight4.table_code_spec. Qed.
Print Assumptions C65_table_codes.

(** ** C17: set_moment makes the coefficient list as long as needed, and no longer *)
Theorem C17_length_partial : forall (d : M_Legendre.legd R) l v, l <> 0%nat ->
  Datatypes.length (M_Legendre.lg_a (fst (M_Legendre.set_moment d l v))) = Nat.max (Datatypes.length (M_Legendre.lg_a d)) (S l).
Proof. exact L_Tight4.set_moment_length. Qed.
Print Assumptions C17_length_partial.

(** ** C86: the part of a table name from its dot on is taken off: three to five characters in an MCNP directory, exactly
    three in a Serpent one; a name without a dot, or with fewer than three characters after it, is left as it is *)
Theorem C86_mcnp_extension : forall name ext, ~ In "."%char name ->
  (forall c, In c ext -> In c (list_ascii_of_string "ABCDEFGHIJKLMNOPQRSTUVWXYZabcdefghijklmnopqrstuvwxyz0123456789_")) ->
  M_Ident.regex_remove M_Library.rx_ext35 name = name /\
  M_Ident.regex_remove M_Library.rx_ext35 (name ++ "."%char :: ext) = if (Datatypes.length ext <? 3)%nat then name ++ "."%char :: ext else name ++ skipn 5 ext.
Proof. intros name ext N X. split; [exact (L_Tight4.remove_plain _ name N)|exact (L_Tight4.remove_ext35 name ext N X)]. Qed.
Print Assumptions C86_mcnp_extension.
Theorem C86_serpent_extension : forall name ext, ~ In "."%char name ->
  (forall c, In c ext -> In c (list_ascii_of_string "ABCDEFGHIJKLMNOPQRSTUVWXYZabcdefghijklmnopqrstuvwxyz0123456789_")) ->
  M_Ident.regex_remove M_Library.rx_ext3 name = name /\
  M_Ident.regex_remove M_Library.rx_ext3 (name ++ "."%char :: ext) = if (Datatypes.length ext <? 3)%nat then name ++ "."%char :: ext else name ++ skipn 3 ext.
Proof. intros name ext N X. split; [exact (L_Tight4.remove_plain _ name N)|exact (L_Tight4.remove_ext3 name ext N X)]. Qed.
Print Assumptions C86_serpent_extension.
Example C86_extension_nonvacuous : M_Ident.regex_remove M_Library.rx_ext35 (list_ascii_of_string "92235.710nc") = list_ascii_of_string "92235".
Proof.
  pose proof (C86_mcnp_extension (list_ascii_of_string "92235") (list_ascii_of_string "710nc")) as H. cbn in H. destruct H as [_ H]; [intros H; repeat destruct H as [H|H]; try discriminate; contradiction| |exact H].
  intros c H. repeat destruct H as [<-|H]; try contradiction; cbn; tauto.
Qed.

(** ** C50: the heaviest mass number each of the 118 elements has in the isotope table *)
Definition heaviest : list Z := [7; 10; 13; 16; 21; 23; 25; 28; 31; 34; 37; 40; 43; 45; 47; 49; 51; 53; 56; 58; 61; 63; 66; 68; 71; 74; 76; 79; 82; 85; 87; 90; 92; 95; 98; 101; 103; 107; 109; 112; 115; 117; 120; 124; 126; 128; 130; 133; 135; 138; 140; 143; 145; 148; 151; 153; 155; 157; 159; 161; 163; 165; 167; 169; 171; 173; 175; 177; 179; 181; 185; 189; 192; 194; 198; 202; 204; 206; 210; 216; 218; 220; 224; 227; 229; 231; 233; 235; 237; 239; 241; 243; 245; 247; 249; 252; 254; 256; 258; 260; 262; 264; 266; 268; 270; 273; 275; 277; 279; 281; 283; 285; 287; 289; 291; 293; 294; 295]%Z.
Theorem C50_heaviest_isotopes : forall Z0, (1 <= Z0 <= 118)%Z -> Some (M_Ident.largest_isotope Z0) = nth_error heaviest (Z.to_nat (Z0 - 1)).
Proof.
  intros Z0 H. assert (T : forallb (fun k => match nth_error heaviest k with Some z => (M_Ident.largest_isotope (Z.of_nat k + 1) =? z)%Z | None => false end) (seq 0 118) = true) by (vm_compute; reflexivity).
  rewrite forallb_forall in T. specialize (T (Z.to_nat (Z0 - 1)) ltac:(apply List.in_seq; lia)). replace (Z.of_nat (Z.to_nat (Z0 - 1)) + 1)%Z with Z0 in T by lia. destruct (nth_error heaviest _); [|discriminate]. f_equal. lia.
Qed.
Print Assumptions C50_heaviest_isotopes.

(** ** C34: a cross section with a single value is that value from the first grid energy on and zero below it, however it is evaluated *)
Theorem C34_single_value : forall (x : xsec R) e0 v E i El Eh, x_single x = true -> frontR (g_vals (x_grid x)) = Ok e0 -> frontR (x_vals x) = Ok v ->
  (E < e0 -> xs_eval x E = Ok 0 /\ xs_eval_i x E i = Ok 0 /\ xs_eval_ilh x E i El Eh = Ok 0) /\
  (e0 <= E -> xs_eval x E = Ok v /\ xs_eval_i x E i = Ok v /\ xs_eval_ilh x E i El Eh = Ok v).
Proof.
  intros x e0 v E i El Eh S0 F V. unfold xs_eval, xs_eval_i, xs_eval_ilh. rewrite S0, F, V. cbn [bind]. rnum. destruct (Rltb_spec E e0); split; intros; try lra; repeat split; reflexivity.
Qed.
Print Assumptions C34_single_value.

(** ** C51: the hash of an isotope is the hash of its ZAID *)
Theorem C51_isotope_hash_is_zaid_hash : forall h i, isotope_hash h i = zaid_hash h (isotope_zaid i).
Proof. intros h i. unfold isotope_hash, zaid_hash, zaid_number, isotope_zaid. cbn [za_Z za_A]. do 2 f_equal. lia. Qed.
Print Assumptions C51_isotope_hash_is_zaid_hash.
