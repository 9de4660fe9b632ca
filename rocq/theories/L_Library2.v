(** * Library: symbols, thermal scattering names, Serpent directory files *)
From Verif Require Import Base NumR L_Search M_Grid M_Ident L_Ident L_Ident2 S_Ident L_Ident3 M_Library S_Library L_Library.
From Coq Require Import Reals Lra.
From Coq Require Import String Ascii List Sorted Permutation. Import ListNotations.
From Coq Require Import ZifyBool ZifyNat.
Local Open Scope list_scope.
Local Open Scope Z_scope.

(** ** symbols *)
Lemma nuc_match_of_ok s n : nuclide_of_string s = Ok n -> regex_match rx_is_nuc s = true.
Proof. unfold nuclide_of_string. destruct (regex_match rx_is_nuc s); [reflexivity|discriminate]. Qed.
Lemma element_not_nuc w1 w2 Z0 : 1 <= Z0 <= 118 -> all is_space w1 -> all is_space w2 -> regex_match rx_is_nuc (w1 ++ element_symbol Z0 ++ w2) = false.
Proof.
  intros H W1 W2. destruct (regex_match _ _) eqn:Q; [|reflexivity]. exfalso. apply match_nuc in Q as (v1 & w & d & m & v2 & E & V1 & W & (D & L) & M & V2). destruct (entry_like Z0 H) as (S & _).
  assert (ND : all (fun c => negb (is_digit c)) (w1 ++ element_symbol Z0 ++ w2)) by (apply all_app; split; [apply space_no_digit, W1|apply all_app; split; [apply sym_no_digit, S|apply space_no_digit, W2]]).
  destruct d as [|x d]; [cbn in L; lia|]. apply all_cons in D as [P _]. specialize (ND x). rewrite E in ND. cbv beta in ND. rewrite P in ND. discriminate ND. apply in_or_app. right. apply in_or_app. left. apply in_or_app. right. left. reflexivity.
Qed.
Lemma symbol_to_zaid_nuclide s n : nuclide_of_string s = Ok n -> symbol_to_zaid s = Ok (nuclide_zaid n).
Proof. intros H. unfold symbol_to_zaid. rewrite (nuc_match_of_ok s n H), H. reflexivity. Qed.
Lemma symbol_to_zaid_element w1 w2 Z0 : 1 <= Z0 <= 118 -> all is_space w1 -> all is_space w2 -> symbol_to_zaid (w1 ++ element_symbol Z0 ++ w2) = Ok (mkZaid Z0 0).
Proof.
  intros H W1 W2. unfold symbol_to_zaid. rewrite (element_not_nuc w1 w2 Z0 H W1 W2). destruct (entry_like Z0 H) as (S & _). rewrite (proj2 (match_element _)) by (exists w1, (element_symbol Z0), w2; auto). rewrite (element_of_symbol w1 w2 Z0 H W1 W2). reflexivity.
Qed.
Lemma symbol_to_zaid_inv s z : symbol_to_zaid s = Ok z -> (exists n, nuclide_of_string s = Ok n /\ z = nuclide_zaid n) \/ (exists Z0 w1 w2, 1 <= Z0 <= 118 /\ all is_space w1 /\ all is_space w2 /\ s = w1 ++ element_symbol Z0 ++ w2 /\ z = mkZaid Z0 0).
Proof.
  unfold symbol_to_zaid. destruct (regex_match rx_is_nuc s).
  - intros H. apply bind_ok in H as (n & Hn & H). injection H as <-. left. eauto.
  - destruct (regex_match rx_is_element s) eqn:M; [|discriminate]. intros H. apply bind_ok in H as (e & He & H). injection H as <-. right. apply match_element in M as (w1 & w & w2 & -> & W1 & W & W2).
    pose proof (element_of_string_inv _ _ He) as (R & v1 & v2 & V1 & V2 & C). exists e. destruct (entry_like e R) as (S & Nm & Ln). exists v1, v2. split; [exact R|]. split; [exact V1|]. split; [exact V2|]. split; [|reflexivity]. destruct C as [C|C]; [exact C|]. exfalso.
    apply (f_equal visible) in C. rewrite !visible_mid in C; try assumption; try (apply sym_visible; assumption); try (apply name_visible; assumption). subst w. destruct W as (U & l & E & _ & _ & Ll). rewrite E in Ln. cbn in Ln. lia.
Qed.
(** a listed symbol names the data it was listed for *)
Lemma zaid_symbol_back Z0 A s : 0 <= Z0 < 256 -> A <= 300 \/ 400 <= A <= 600 -> 0 <= A -> zaid_symbol (mkZaid Z0 A) = Ok s -> symbol_to_zaid s = Ok (mkZaid Z0 A).
Proof.
  intros HZ HA H0 H. unfold zaid_symbol in H. cbn [za_A] in H. destruct (A =? 0) eqn:Q.
  - apply bind_ok in H as (e & He & H). apply (make_element_iff Z0 e) in He as (-> & N0 & N1). injection H as <-. assert (A = 0) as -> by lia. pose proof (symbol_to_zaid_element [] [] Z0 ltac:(lia) (all_nil _) (all_nil _)) as E. cbn [app] in E. rewrite app_nil_r in E. exact E.
  - apply bind_ok in H as (n & Hn & H). injection H as <-. destruct (Z_le_dec A 300) as [Q3|Q3].
    + apply zaid_low in Hn as (-> & H1 & H2); [|lia|lia]. rewrite (symbol_to_zaid_nuclide _ (mkNuc (mkIso Z0 A) 0)); [reflexivity|]. apply nuclide_symbol_roundtrip; lia.
    + apply zaid_high in Hn as (H1 & k & K0 & K); [|lia|lia]. cbv zeta in K. destruct K as (-> & K1 & K2). pose proof (largest_pos Z0 H1). assert (W : wrap32 (A - 400) = A - 400) by (unfold wrap32; apply Z.mod_small; lia). rewrite W in *.
      assert (k <= 1) by (destruct (Z_le_dec k 1); [lia|]; specialize (K2 1 ltac:(lia)); lia). rewrite Z.mod_small by lia. rewrite (symbol_to_zaid_nuclide _ _ (nuclide_symbol_roundtrip Z0 (A - 400 - 100 * k) (1 + k) H1 ltac:(lia) ltac:(lia))).
      f_equal. unfold nuclide_zaid. cbn [nu_iso nu_level is_Z is_A]. f_equal. destruct (0 <? 1 + k) eqn:Q1; [|lia]. unfold wrap32. rewrite Z.mod_small; lia.
Qed.
(** ** thermal scattering law names *)
Lemma tsl_char_not c : is_space c = true -> is_tsl_char c = false.
Proof. unfold is_space, is_tsl_char, is_word, is_upper, is_lower, is_digit. lia. Qed.
Lemma tsl_name_spec w1 n rest : all is_space w1 -> all is_tsl_char n -> (1 <= length n <= 6)%nat -> (length n = 6)%nat \/ stops is_tsl_char rest -> tsl_name (w1 ++ n ++ rest) = Some n.
Proof.
  intros W1 W L S. unfold tsl_name, regex_search. rewrite (search_skip rx_tsl (fun c => negb (is_tsl_char c)) (skip_first _ _) w1 []) by (intros c I; rewrite (tsl_char_not c) by (apply W1, I); reflexivity).
  destruct n as [|x n]; [cbn in L; lia|]. apply all_cons in W as [P W]. destruct (first_upto is_tsl_char 5 n (x :: rev w1 ++ []) rest W ltac:(cbn in L, S; destruct S as [S|S]; [left; lia|right; split; [lia|exact S]])) as (k & E).
  destruct (first_seq (rx_chr is_tsl_char) (rx_upto 5 is_tsl_char) (rev w1 ++ [], x :: n ++ rest) (x :: rev w1 ++ [], n ++ rest) [] _ k (first_chr _ _ _ _ P) E) as (k' & E').
  pose proof (search_here rx_tsl (rev w1 ++ []) (x :: n) rest k') as SH. cbn [app rev] in SH. rewrite <- app_assoc in SH. cbn [app]. rewrite SH; [reflexivity|exact E'].
Qed.

(** ** sorting *)
Section Sort.
  Notation table := (@table R).
  Lemma insert_perm (t : table) l : Permutation (insert_table t l) (t :: l).
  Proof. induction l as [|u l IH]; cbn; [reflexivity|]. destruct (Rltb (t_temp u) (t_temp t)); [|reflexivity]. rewrite IH. apply perm_swap. Qed.
  Lemma sort_perm (l : list table) : Permutation (sort_tables l) l.
  Proof. unfold sort_tables. induction l as [|t l IH]; cbn; [reflexivity|]. rewrite insert_perm. apply perm_skip, IH. Qed.
  Lemma insert_sorted_R (t : table) l : StronglySorted Rle (map t_temp l) -> StronglySorted Rle (map t_temp (insert_table t l)).
  Proof.
    induction l as [|u l IH]; cbn; intros S; [repeat constructor|]. inversion S as [|? ? S1 F]; subst. change (@nltb R NumR) with Rltb. destruct (Rltb_spec (t_temp u) (t_temp t)) as [Q|Q]; cbn.
    - constructor; [apply IH, S1|]. rewrite Forall_forall in *. intros x I. apply in_map_iff in I as (v & <- & I). apply (Permutation_in _ (insert_perm t l)) in I as [<-|I]; [lra|apply F, in_map, I].
    - constructor; [constructor; assumption|]. constructor; [lra|]. rewrite Forall_forall in *. intros x I. specialize (F x I). lra.
  Qed.
  Lemma sort_sorted (l : list table) : StronglySorted Rle (map t_temp (sort_tables l)).
  Proof. unfold sort_tables. induction l as [|t l IH]; cbn; [constructor|apply insert_sorted_R, IH]. Qed.
End Sort.

(** ** Serpent files *)
Section Serpent.
  Context (stod : str -> res R) (stoul_of : str -> res Z).
  Notation library := (@library R). Notation stlist := (@stlist R). Notation table := (@table R).
  Definition with_row (v : vars) (r : row) : vars := mkVars (c_zaid r) (c_type r) (c_ZA r) (c_AW r) (c_T r) (c_bin r) (c_path r) (v_seen v).
  Lemma read_row_ok v r rest tr e : read_row v (mkStream (row_words r ++ rest) tr e) = (with_row v r, mkStream rest tr (match rest with [] => negb tr | _ => false end)).
  Proof. reflexivity. Qed.
  Lemma read_row_none v tr e : read_row v (mkStream [] tr e) = (v, mkStream [] tr true).
  Proof. destruct v. reflexivity. Qed.
  Fixpoint process (v : vars) (rows : list row) (lib : library) : res (vars * library) :=
    match rows with [] => Ok (v, lib) | r :: t => let! vl := add_row stod stoul_of (with_row v r) lib in process (fst vl) t (snd vl) end.
  Lemma words_nil rows : words rows = [] -> rows = [].
  Proof. destruct rows; [reflexivity|discriminate]. Qed.
  Lemma rows_loop_eof fuel v ws tr lib : (1 <= fuel)%nat -> rows_loop stod stoul_of fuel v (mkStream ws tr true) lib = Ok lib.
  Proof. destruct fuel; [lia|]. reflexivity. Qed.
  Lemma rows_loop_false : forall rows fuel v lib, rows <> [] -> (length rows < fuel)%nat -> rows_loop stod stoul_of fuel v (mkStream (words rows) false false) lib = let! vl := process v rows lib in Ok (snd vl).
  Proof.
    induction rows as [|r rows IH]; intros fuel v lib NE F; [congruence|]. destruct fuel as [|fuel]; [lia|]. cbn [length] in F. change (words (r :: rows)) with (row_words r ++ words rows). cbn [rows_loop s_eof]. rewrite read_row_ok. cbn [process].
    destruct (add_row stod stoul_of (with_row v r) lib) as [[v1 lib1]| | |]; cbn [bind fst snd]; try reflexivity. destruct rows as [|r' rows'].
    - apply rows_loop_eof. cbn in F. lia.
    - rewrite <- (IH fuel); [reflexivity|discriminate|lia].
  Qed.
  Lemma rows_loop_true : forall rows fuel v lib, (length rows + 1 < fuel)%nat -> rows_loop stod stoul_of fuel v (mkStream (words rows) true false) lib = let! vl := process v rows lib in let! vl' := add_row stod stoul_of (fst vl) (snd vl) in Ok (snd vl').
  Proof.
    induction rows as [|r rows IH]; intros fuel v lib F; (destruct fuel as [|fuel]; [lia|]).
    - cbn [words flat_map rows_loop s_eof process bind fst snd]. rewrite read_row_none. destruct (add_row stod stoul_of v lib) as [vl| | |]; cbn [bind]; try reflexivity. apply rows_loop_eof. lia.
    - cbn [length] in F. change (words (r :: rows)) with (row_words r ++ words rows). cbn [rows_loop s_eof]. rewrite read_row_ok. cbn [process].
      destruct (add_row stod stoul_of (with_row v r) lib) as [[v1 lib1]| | |]; cbn [bind fst snd]; try reflexivity. destruct rows as [|r' rows']; rewrite <- (IH fuel) by lia; reflexivity.
  Qed.
  Lemma words_length rows : length (words rows) = (9 * length rows)%nat.
  Proof. induction rows as [|r rows IH]; [reflexivity|]. change (words (r :: rows)) with (row_words r ++ words rows). rewrite app_length, IH. cbn [length row_words]. lia. Qed.
  (** the tables registered for a key *)
  Definition tables_n (lib : library) (z : zaid) : list table := match lookup zaid_eq z (lib_neutron lib) with Some l => l_tables l | None => [] end.
  Definition tables_t (lib : library) (n : str) : list table := match lookup str_eqb n (lib_tsl lib) with Some l => l_tables l | None => [] end.
  Lemma first_is_iff c s : first_is c s = true <-> starts c s.
  Proof. destruct s as [|x s]; cbn; [split; [discriminate|intros (r & H); discriminate]|]. rewrite Ascii.eqb_eq. split; [intros ->; exists s; reflexivity|intros (r & H); injection H; auto]. Qed.
  Lemma seen_iff z seen : existsb (str_eqb z) seen = true <-> In z seen.
  Proof. rewrite existsb_exists. split; [intros (y & I & E); apply str_eqb_iff in E as ->; exact I|intros I; exists z; rewrite str_eqb_refl; auto]. Qed.
  Definition row_is_n (z : zaid) (r : row) : bool := first_is "1"%char (c_type r) && match stoul_of (c_ZA r) with Ok n => zaid_eq (zaid_of_number (wrap32 n)) z | _ => false end.
  Definition row_is_t (n : str) (r : row) : bool := negb (first_is "1"%char (c_type r)) && str_eqb (regex_remove rx_ext3 (c_zaid r)) n.
  Definition described (rows : list row) (ts : list table) : Prop := Forall2 (describes stod) rows ts.
  Definition blank_list (l : stlist) : Prop := length (l_loaded l) = length (l_tables l) /\ l_first l = None /\ l_temps l = [] /\ forall i o, nth_error (l_loaded l) i = Some o -> o = None.
  Definition blank_lib (lib : library) : Prop := (forall z l, lookup zaid_eq z (lib_neutron lib) = Some l -> blank_list l) /\ (forall n l, lookup str_eqb n (lib_tsl lib) = Some l -> blank_list l).
  Lemma push_blank l t : blank_list l -> blank_list (push_table t l).
  Proof.
    intros (B1 & B2 & B3 & B4). unfold push_table. split; cbn; [rewrite !app_length; cbn; lia|]. split; [exact B2|]. split; [exact B3|]. intros i o H. destruct (Nat.lt_ge_cases i (length (l_loaded l))) as [C|C]; [rewrite nth_error_app1 in H by exact C; eauto|]. rewrite nth_error_app2 in H by exact C. destruct (i - length (l_loaded l))%nat as [|[|k]]; cbn in H; congruence.
  Qed.
  Lemma no_blank : blank_list no_list. Proof. repeat split; try reflexivity. intros [|i] o; discriminate. Qed.
  Lemma add_blank {K} (eqb : K -> K -> bool) (E : forall a b, eqb a b = true <-> a = b) k t m : (forall z l, lookup eqb z m = Some l -> blank_list l) -> forall z l, lookup eqb z (add_table eqb k t m) = Some l -> blank_list l.
  Proof.
    intros B z l. unfold add_table. rewrite (lookup_assign eqb E). destruct (eqb k z); [|apply B]. intros H. injection H as <-. apply push_blank. destruct (lookup eqb k m) eqn:Q; [eapply B, Q|apply no_blank].
  Qed.
  Lemma add_tables {K} (eqb : K -> K -> bool) (E : forall a b, eqb a b = true <-> a = b) k (t : table) m z :
    match lookup eqb z (add_table eqb k t m) with Some l => l_tables l | None => [] end = (match lookup eqb z m with Some l => l_tables l | None => [] end) ++ (if eqb k z then [t] else []).
  Proof.
    unfold add_table. rewrite (lookup_assign eqb E). destruct (eqb k z) eqn:Q; [apply E in Q as ->|rewrite app_nil_r; reflexivity]. unfold push_table. cbn [l_tables]. destruct (lookup eqb z m); reflexivity.
  Qed.
  Lemma describes_mk r temp : stod (c_T r) = Ok temp -> describes stod r (mkTable (c_path r) (first_is "1"%char (c_bin r)) temp).
  Proof. intros H. split; [reflexivity|]. split; [apply first_is_iff|exact H]. Qed.
  Lemma process_spec : forall rows v lib v' lib', blank_lib lib -> process v rows lib = Ok (v', lib') -> blank_lib lib' /\ exists k, new_rows (v_seen v) rows k /\
    (forall z, exists ts, described (filter (row_is_n z) k) ts /\ tables_n lib' z = tables_n lib z ++ ts) /\
    (forall n, exists ts, described (filter (row_is_t n) k) ts /\ tables_t lib' n = tables_t lib n ++ ts) /\
    (forall r, In r k -> first_is "1"%char (c_type r) = true -> exists n, stoul_of (c_ZA r) = Ok n).
  Proof.
    induction rows as [|r rows IH]; intros v lib v' lib' B H; cbn [process] in H.
    - injection H as <- <-. split; [exact B|]. exists []. split; [constructor|]. split; [|split; [|intros r []]]; intros z; exists []; (split; [constructor|rewrite app_nil_r; reflexivity]).
    - apply bind_ok in H as ([v1 lib1] & H1 & H). cbn [fst snd] in H. unfold add_row in H1. cbn [with_row v_type v_zaid v_seen v_T v_path v_bin v_ZA v_AW] in H1.
      destruct (negb (first_is "1"%char (c_type r)) && negb (first_is "3"%char (c_type r))) eqn:Q1.
      { injection H1 as <- <-. destruct (IH _ _ _ _ B H) as (B' & k & K & R). split; [exact B'|]. exists k. split; [|exact R]. apply andb_true_iff in Q1 as [Q1 Q2]. apply new_other; [rewrite <- first_is_iff; destruct (first_is "1"%char (c_type r)); [discriminate|auto]|rewrite <- first_is_iff; destruct (first_is "3"%char (c_type r)); [discriminate|auto]|exact K]. }
      destruct (existsb (str_eqb (c_zaid r)) (v_seen v)) eqn:Q2.
      { injection H1 as <- <-. destruct (IH _ _ _ _ B H) as (B' & k & K & R). split; [exact B'|]. exists k. split; [|exact R]. apply new_alias; [apply seen_iff, Q2|exact K]. }
      assert (NS : ~ In (c_zaid r) (v_seen v)) by (rewrite <- seen_iff, Q2; discriminate).
      assert (ST : starts "1"%char (c_type r) \/ starts "3"%char (c_type r)) by (rewrite <- !first_is_iff; destruct (first_is "1"%char (c_type r)), (first_is "3"%char (c_type r)); cbn in Q1; auto; discriminate).
      apply bind_ok in H1 as (temp & HT & H1). pose proof (describes_mk r temp HT) as DM. set (t := mkTable _ _ _) in DM, H1. destruct (first_is "1"%char (c_type r)) eqn:Q3.
      + apply bind_ok in H1 as (ZA & HZ & H1). apply bind_ok in H1 as (awr & _ & H1). set (z0 := zaid_of_number (wrap32 ZA)) in H1. assert (v1 = mkVars (regex_remove rx_ext3 (c_zaid r)) (c_type r) (c_ZA r) (c_AW r) (c_T r) (c_bin r) (c_path r) (c_zaid r :: v_seen v) /\ lib1 = mkLib (assign zaid_eq z0 awr (lib_awr lib)) (add_table zaid_eq z0 t (lib_neutron lib)) (lib_tsl lib)) as [-> EL] by (split; congruence). clear H1.
        assert (B1 : blank_lib lib1) by (rewrite EL; split; [apply (add_blank zaid_eq zaid_eqb_iff), B|apply B]). destruct (IH _ _ _ _ B1 H) as (B' & k & K & Kn & Kt & Kz). rewrite EL in Kn, Kt. clear H B1 EL. split; [exact B'|]. exists (r :: k). split; [apply new_table; assumption|]. split; [|split].
        * intros z. destruct (Kn z) as (ts & D & E). cbn [filter]. unfold tables_n in E at 2. cbn [lib_neutron] in E. rewrite (add_tables zaid_eq zaid_eqb_iff) in E. fold (tables_n lib z) in E. unfold row_is_n at 1. rewrite Q3, HZ. cbn [andb]. fold z0. destruct (zaid_eq z0 z).
          -- exists (t :: ts). split; [constructor; assumption|]. rewrite E, <- app_assoc. reflexivity.
          -- exists ts. rewrite app_nil_r in E. auto.
        * intros n. destruct (Kt n) as (ts & D & E). cbn [filter]. unfold row_is_t at 1. rewrite Q3. cbn [negb andb]. exists ts. auto.
        * intros r' [<-|I] F; [eauto|auto].
      + assert (v1 = mkVars (regex_remove rx_ext3 (c_zaid r)) (c_type r) (c_ZA r) (c_AW r) (c_T r) (c_bin r) (c_path r) (c_zaid r :: v_seen v) /\ lib1 = mkLib (lib_awr lib) (lib_neutron lib) (add_table str_eqb (regex_remove rx_ext3 (c_zaid r)) t (lib_tsl lib))) as [-> EL] by (split; congruence). clear H1.
        assert (B1 : blank_lib lib1) by (rewrite EL; split; [apply B|apply (add_blank str_eqb str_eqb_iff), B]). destruct (IH _ _ _ _ B1 H) as (B' & k & K & Kn & Kt & Kz). rewrite EL in Kn, Kt. clear H B1 EL. split; [exact B'|]. exists (r :: k). split; [apply new_table; assumption|]. split; [|split].
        * intros z. destruct (Kn z) as (ts & D & E). cbn [filter]. unfold row_is_n at 1. rewrite Q3. cbn [andb]. exists ts. auto.
        * intros n. destruct (Kt n) as (ts & D & E). cbn [filter]. unfold tables_t in E at 2. cbn [lib_tsl] in E. rewrite (add_tables str_eqb str_eqb_iff) in E. fold (tables_t lib n) in E. unfold row_is_t at 1. rewrite Q3. cbn [negb andb]. destruct (str_eqb (regex_remove rx_ext3 (c_zaid r)) n).
          -- exists (t :: ts). split; [constructor; assumption|]. rewrite E, <- app_assoc. reflexivity.
          -- exists ts. rewrite app_nil_r in E. auto.
        * intros r' [<-|I] F; [congruence|auto].
  Qed.
  Lemma lookup_map {K V W} (eqb : K -> K -> bool) (f : V -> W) k (m : list (K * V)) : lookup eqb k (map (fun kl => (fst kl, f (snd kl))) m) = option_map f (lookup eqb k m).
  Proof. induction m as [|[a b] m IH]; cbn; [reflexivity|]. destruct (eqb k a); [reflexivity|exact IH]. Qed.
  (** the finished library: sorted, nothing loaded *)
  Definition sorted_lib (lib : library) : Prop := forall s l, list_of lib s = Some l -> l_temps l = map t_temp (l_tables l) /\ StronglySorted Rle (l_temps l).
  Lemma finish_ok lib : blank_lib lib -> fresh (finish_library lib) /\ sorted_lib (finish_library lib) /\ (forall z, Permutation (tables_n (finish_library lib) z) (tables_n lib z)) /\ (forall n, Permutation (tables_t (finish_library lib) n) (tables_t lib n)).
  Proof.
    intros (B1 & B2). assert (G : forall s l, list_of (finish_library lib) s = Some l -> exists l0, l = finish_list l0 /\ blank_list l0).
    { intros [z i|n i] l; unfold finish_library; cbn [list_of lib_neutron lib_tsl]; rewrite lookup_map; [destruct (lookup zaid_eq z (lib_neutron lib)) eqn:Q|destruct (lookup str_eqb n (lib_tsl lib)) eqn:Q]; cbn; try discriminate; intros H; injection H as <-; eauto. }
    split; [|split; [|split]].
    - intros s l L. destruct (G s l L) as (l0 & -> & (C1 & C2 & C3 & C4)). unfold finish_list. split; [split; cbn; rewrite map_length; [rewrite (Permutation_length (sort_perm (l_tables l0))); exact C1|reflexivity]|]. split; [exact C4|exact C2].
    - intros s l L. destruct (G s l L) as (l0 & -> & _). split; [reflexivity|apply sort_sorted].
    - intros z. unfold tables_n, finish_library. cbn [lib_neutron]. rewrite lookup_map. destruct (lookup zaid_eq z (lib_neutron lib)); cbn; [apply sort_perm|reflexivity].
    - intros n. unfold tables_t, finish_library. cbn [lib_tsl]. rewrite lookup_map. destruct (lookup str_eqb n (lib_tsl lib)); cbn; [apply sort_perm|reflexivity].
  Qed.
  Lemma blank_empty : blank_lib empty_library. Proof. split; intros ? ? H; discriminate. Qed.
  Lemma serpent_false rows lib : rows <> [] -> SerpentLibrary stod stoul_of (words rows) false = Ok lib -> fresh lib /\ sorted_lib lib /\ exists k, new_rows [] rows k /\
    (forall z, exists ts, described (filter (row_is_n z) k) ts /\ Permutation (tables_n lib z) ts) /\
    (forall n, exists ts, described (filter (row_is_t n) k) ts /\ Permutation (tables_t lib n) ts).
  Proof.
    intros NE H. unfold SerpentLibrary in H. rewrite (rows_loop_false rows) in H; [|exact NE|rewrite words_length; lia]. apply bind_ok in H as (lib0 & H0 & H). apply bind_ok in H as (syms & _ & H). apply bind_ok in H0 as ([v1 lib1] & H1 & H0). cbn [snd] in H0.
    assert (lib1 = lib0) as -> by congruence. assert (lib = finish_library lib0) as -> by congruence. clear H H0. destruct (process_spec rows no_vars empty_library v1 lib0 blank_empty H1) as (B & k & K & Kn & Kt & _). destruct (finish_ok lib0 B) as (F & S & Pn & Pt). split; [exact F|]. split; [exact S|]. exists k. split; [exact K|].
    split; [intros z; destruct (Kn z) as (ts & D & E)|intros n; destruct (Kt n) as (ts & D & E)]; exists ts; (split; [exact D|]); cbn in E; rewrite <- E; auto.
  Qed.
  Lemma add_row_blank v lib v' lib' : blank_lib lib -> add_row stod stoul_of v lib = Ok (v', lib') -> blank_lib lib'.
  Proof.
    intros B H. unfold add_row in H. destruct (_ && _); [injection H as _ <-; exact B|]. destruct (existsb _ _); [injection H as _ <-; exact B|]. apply bind_ok in H as (temp & _ & H). destruct (first_is "1"%char (v_type v)).
    - apply bind_ok in H as (ZA & _ & H). apply bind_ok in H as (awr & _ & H). assert (E := f_equal (fun x => match x with Ok (_, l) => l | _ => lib end) H). cbn beta iota in E. subst lib'. split; [apply (add_blank zaid_eq zaid_eqb_iff), B|apply B].
    - assert (E := f_equal (fun x => match x with Ok (_, l) => l | _ => lib end) H). cbn beta iota in E. subst lib'. split; [apply B|apply (add_blank str_eqb str_eqb_iff), B].
  Qed.
  Lemma serpent_true rows lib : SerpentLibrary stod stoul_of (words rows) true = Ok lib -> fresh lib /\ sorted_lib lib.
  Proof.
    intros H. unfold SerpentLibrary in H. rewrite (rows_loop_true rows) in H by (rewrite words_length; lia). apply bind_ok in H as (lib0 & H0 & H). apply bind_ok in H as (syms & _ & H). apply bind_ok in H0 as ([v1 lib1] & H1 & H0). apply bind_ok in H0 as ([v2 lib2] & H2 & H0). cbn [fst snd] in *.
    assert (lib2 = lib0) as -> by congruence. assert (lib = finish_library lib0) as -> by congruence. destruct (process_spec rows no_vars empty_library v1 lib1 blank_empty H1) as (B & _). pose proof (add_row_blank v1 lib1 v2 lib0 B H2) as B2. destruct (finish_ok lib0 B2) as (F & S & _). auto.
  Qed.

  (** ** MCNP directories *)
  Context (to_kelvin : R -> R).
  Definition ends (c : ascii) (s : str) : Prop := exists r, s = r ++ [c].
  Lemma ends_iff c s : c <> "000"%char -> Ascii.eqb (last s "000"%char) c = true <-> ends c s.
  Proof.
    intros NC. rewrite Ascii.eqb_eq. split.
    - intros H. destruct s as [|x s]; [cbn in H; congruence|]. destruct (exists_last (l := x :: s) ltac:(discriminate)) as (r & y & E). rewrite E in *. rewrite last_last in H. subst y. exists r. reflexivity.
    - intros (r & ->). apply last_last.
  Qed.
  (** the table a directory line describes *)
  Definition line_describes (ws : list str) (t : table) : Prop :=
    t_file t = nth 2 ws [] /\ (t_binary t = true <-> nth 4 ws [] = ["2"%char]) /\ exists v, stod (nth 9 ws []) = Ok v /\ t_temp t = to_kelvin v.
  Definition line_is_n (z : zaid) (ws : list str) : bool :=
    Ascii.eqb (last (word ws 0) "000"%char) "c"%char && match stoul_of (regex_remove rx_ext35 (word ws 0)) with Ok n => zaid_eq (zaid_of_number (wrap32 n)) z | _ => false end.
  Definition line_is_t (n : str) (ws : list str) : bool :=
    Ascii.eqb (last (word ws 0) "000"%char) "t"%char && str_eqb (regex_remove rx_ext35 (word ws 0)) n.
  Lemma mcnp_row_spec ws lib lib' : blank_lib lib -> mcnp_row stod stoul_of to_kelvin ws lib = Ok lib' -> blank_lib lib' /\ (ws = [] \/ (7 <= length ws <= 11)%nat) /\
    (forall z, exists ts, Forall2 line_describes (if line_is_n z ws then [ws] else []) ts /\ tables_n lib' z = tables_n lib z ++ ts) /\
    (forall n, exists ts, Forall2 line_describes (if line_is_t n ws then [ws] else []) ts /\ tables_t lib' n = tables_t lib n ++ ts).
  Proof.
    intros B H. assert (Zero : forall {A} (l : list A), exists ts, Forall2 line_describes [] ts /\ l = l) by (intros; exists []; split; constructor).
    unfold mcnp_row in H. destruct ws as [|w0 ws0] eqn:EW.
    { injection H as <-. split; [exact B|]. split; [auto|]. split; intros k; exists []; (split; [constructor|rewrite app_nil_r; reflexivity]). }
    rewrite <- EW in *. clear EW. destruct ((length ws <? 7)%nat || (11 <? length ws)%nat) eqn:QL; [discriminate|]. apply orb_false_iff in QL as [QL1 QL2]. apply Nat.ltb_ge in QL1, QL2.
    cbv zeta in H. destruct (Ascii.eqb (last (word ws 0) "000"%char) "c"%char) eqn:QC; [|destruct (Ascii.eqb (last (word ws 0) "000"%char) "t"%char) eqn:QT]; cbn [negb andb] in H.
    - apply bind_ok in H as (temp & HT & H). apply bind_ok in H as (za & HZ & H). set (z0 := zaid_of_number (wrap32 za)) in H. set (t := mkTable _ _ _) in H.
      assert (D : line_describes ws t) by (split; [reflexivity|]; split; [apply str_eqb_iff|]; exists temp; split; [exact HT|reflexivity]).
      assert (EL : lib' = mkLib (lib_awr lib) (add_table zaid_eq z0 t (lib_neutron lib)) (lib_tsl lib)) by congruence. split; [rewrite EL; split; [apply (add_blank zaid_eq zaid_eqb_iff), B|apply B]|]. split; [right; lia|]. split.
      + intros z. unfold line_is_n. rewrite QC, HZ. cbn [andb]. fold z0. rewrite EL. unfold tables_n at 1. cbn [lib_neutron]. rewrite (add_tables zaid_eq zaid_eqb_iff). destruct (zaid_eq z0 z); [exists [t]; split; [constructor; [exact D|constructor]|reflexivity]|exists []; split; [constructor|reflexivity]].
      + intros n. unfold line_is_t. apply Ascii.eqb_eq in QC. rewrite QC. cbn. exists []. split; [constructor|]. rewrite EL, app_nil_r. reflexivity.
    - apply bind_ok in H as (temp & HT & H). set (t := mkTable _ _ _) in H. assert (D : line_describes ws t) by (split; [reflexivity|]; split; [apply str_eqb_iff|]; exists temp; split; [exact HT|reflexivity]).
      assert (EL : lib' = mkLib (lib_awr lib) (lib_neutron lib) (add_table str_eqb (regex_remove rx_ext35 (word ws 0)) t (lib_tsl lib))) by congruence. split; [rewrite EL; split; [apply B|apply (add_blank str_eqb str_eqb_iff), B]|]. split; [right; lia|]. split.
      + intros z. unfold line_is_n. rewrite QC. cbn [andb]. exists []. split; [constructor|]. rewrite EL, app_nil_r. reflexivity.
      + intros n. unfold line_is_t. rewrite QT. cbn [andb]. rewrite EL. unfold tables_t at 1. cbn [lib_tsl]. rewrite (add_tables str_eqb str_eqb_iff). destruct (str_eqb _ n); [exists [t]; split; [constructor; [exact D|constructor]|reflexivity]|exists []; split; [constructor|reflexivity]].
    - injection H as <-. split; [exact B|]. split; [right; lia|]. split; intros k; [unfold line_is_n|unfold line_is_t]; rewrite ?QC, ?QT; cbn [andb]; exists []; (split; [constructor|rewrite app_nil_r; reflexivity]).
  Qed.
  Lemma filter_cons_app {A} (f : A -> bool) x l : filter f (x :: l) = (if f x then [x] else []) ++ filter f l.
  Proof. cbn. destruct (f x); reflexivity. Qed.
  Lemma mcnp_rows_spec : forall lines lib lib', blank_lib lib -> mcnp_rows stod stoul_of to_kelvin lines lib = Ok lib' -> blank_lib lib' /\ (forall ws, In ws lines -> ws = [] \/ (7 <= length ws <= 11)%nat) /\
    (forall z, exists ts, Forall2 line_describes (filter (line_is_n z) lines) ts /\ tables_n lib' z = tables_n lib z ++ ts) /\
    (forall n, exists ts, Forall2 line_describes (filter (line_is_t n) lines) ts /\ tables_t lib' n = tables_t lib n ++ ts).
  Proof.
    induction lines as [|ws lines IH]; intros lib lib' B H; cbn [mcnp_rows] in H.
    - injection H as <-. split; [exact B|]. split; [intros ws []|]. split; intros k; exists []; (split; [constructor|rewrite app_nil_r; reflexivity]).
    - apply bind_ok in H as (lib1 & H1 & H). destruct (mcnp_row_spec ws lib lib1 B H1) as (B1 & L1 & N1 & T1). destruct (IH lib1 lib' B1 H) as (B2 & L2 & N2 & T2). split; [exact B2|]. split; [intros w [<-|I]; auto|].
      split; [intros z; destruct (N1 z) as (ts1 & D1 & E1), (N2 z) as (ts2 & D2 & E2)|intros z; destruct (T1 z) as (ts1 & D1 & E1), (T2 z) as (ts2 & D2 & E2)]; exists (ts1 ++ ts2); rewrite filter_cons_app; (split; [apply Forall2_app; assumption|rewrite E2, E1, app_assoc; reflexivity]).
  Qed.
  Lemma mcnp_library awrs lines lib : MCNPLibrary stod stoul_of to_kelvin awrs lines = Ok lib -> fresh lib /\ sorted_lib lib /\ (forall ws, In ws lines -> ws = [] \/ (7 <= length ws <= 11)%nat) /\
    (forall z, exists ts, Forall2 line_describes (filter (line_is_n z) lines) ts /\ Permutation (tables_n lib z) ts) /\
    (forall n, exists ts, Forall2 line_describes (filter (line_is_t n) lines) ts /\ Permutation (tables_t lib n) ts).
  Proof.
    intros H. unfold MCNPLibrary in H. apply bind_ok in H as (lib0 & H0 & H). apply bind_ok in H as (syms & _ & H). assert (lib = finish_library lib0) as -> by congruence. clear H.
    destruct (mcnp_rows_spec lines (mkLib awrs [] []) lib0 ltac:(split; intros ? ? X; discriminate) H0) as (B & L & Nn & Tt). destruct (finish_ok lib0 B) as (F & S & Pn & Pt). split; [exact F|]. split; [exact S|]. split; [exact L|].
    split; [intros z; destruct (Nn z) as (ts & D & E)|intros z; destruct (Tt z) as (ts & D & E)]; exists ts; (split; [exact D|]); cbn in E; rewrite <- E; auto.
  Qed.
End Serpent.
