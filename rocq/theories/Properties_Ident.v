(** * C48-C51, C66: elements, isotopes, nuclides and ZAIDs *)
From Verif Require Import Base L_Search M_Grid M_Ident L_Ident L_Ident2 S_Ident L_Ident3.
From Coq Require Import String Ascii List. Import ListNotations.
From Coq Require Import ZifyBool ZifyNat.
Local Open Scope list_scope.
Local Open Scope Z_scope.

(** ** C48. Element(Z): uint8_t argument, accepted exactly for 1..118, an exception otherwise *)
Theorem C48_element_accepted Z0 : 0 <= Z0 < 256 -> (1 <= Z0 <= 118 /\ make_element Z0 = Ok Z0) \/ (~ 1 <= Z0 <= 118 /\ make_element Z0 = Throw).
Proof. exact (make_element_cases Z0). Qed.
(** each element has its standard symbol *)
Theorem C48_symbol_standard Z0 : 1 <= Z0 <= 118 -> element_symbol Z0 = std_symbol Z0.
Proof. exact (symbol_std Z0). Qed.
(** symbols and names are pairwise distinct *)
Theorem C48_distinct Z1 Z2 : 1 <= Z1 <= 118 -> 1 <= Z2 <= 118 -> element_symbol Z1 = element_symbol Z2 \/ element_name Z1 = element_name Z2 -> Z1 = Z2.
Proof.
  intros H1 H2 [E|E].
  - pose proof (element_of_symbol [] [] Z1 H1 (all_nil _) (all_nil _)) as A. pose proof (element_of_symbol [] [] Z2 H2 (all_nil _) (all_nil _)) as B. rewrite E in A. congruence.
  - pose proof (element_of_name [] [] Z1 H1 (all_nil _) (all_nil _)) as A. pose proof (element_of_name [] [] Z2 H2 (all_nil _) (all_nil _)) as B. rewrite E in A. congruence.
Qed.
(** looking up a symbol or name, possibly surrounded by white space, gives the element; every other string is an exception *)
Theorem C48_lookup s Z0 : element_of_string s = Ok Z0 <->
  1 <= Z0 <= 118 /\ exists w1 w2, blanks w1 /\ blanks w2 /\ (s = w1 ++ std_symbol Z0 ++ w2 \/ s = w1 ++ element_name Z0 ++ w2).
Proof. exact (element_of_string_iff s Z0). Qed.
Theorem C48_lookup_total s : element_of_string s = Throw \/ exists Z0, element_of_string s = Ok Z0.
Proof. exact (element_of_string_or s). Qed.
Theorem C48_lookup_own Z0 : 1 <= Z0 <= 118 -> element_of_string (element_symbol Z0) = Ok Z0 /\ element_of_string (element_name Z0) = Ok Z0.
Proof.
  intros H. split; [exact (element_of_own_symbol Z0 H)|]. pose proof (element_of_name [] [] Z0 H (all_nil _) (all_nil _)) as E. cbn [app] in E. rewrite app_nil_r in E. exact E.
Qed.
Example C48_ex : element_of_string (list_ascii_of_string " Uranium ") = Ok 92 /\ element_of_string (list_ascii_of_string "Og") = Ok 118 /\ element_of_string (list_ascii_of_string "uranium") = Throw.
Proof. repeat split; vm_compute; reflexivity. Qed.

(** ** C66. the standard names are accepted; two are misspelt in the table *)
Theorem C66_standard_names_partial Z0 : 1 <= Z0 <= 118 -> Z0 <> 9 -> Z0 <> 42 -> element_name Z0 = std_name Z0 /\ element_of_string (std_name Z0) = Ok Z0.
Proof. intros H H1 H2. pose proof (name_std Z0 H H1 H2) as E. split; [exact E|]. rewrite <- E. exact (proj2 (C48_lookup_own Z0 H)). Qed.
Theorem C66_standard_names_refuted : ~ (forall Z0, 1 <= Z0 <= 118 -> exists e, element_of_string (std_name Z0) = Ok e).
Proof. intros H. destruct (H 9 ltac:(lia)) as (e & E). vm_compute in E. discriminate. Qed.
Theorem C66_standard_names_exact_refuted : element_of_string (list_ascii_of_string "Fluorine") = Throw /\ element_of_string (list_ascii_of_string "Molybdenum") = Throw.
Proof. split; vm_compute; reflexivity. Qed.

(** ** C49. Isotope(Z, A) (uint8_t, uint32_t) is accepted exactly for 1<=Z<=118, Z<=A<300; Isotope(ZAID) likewise *)
Theorem C49_isotope_accepted Z0 A : 0 <= Z0 < 256 -> 0 <= A < 2 ^ 32 ->
  (1 <= Z0 <= 118 /\ Z0 <= A < 300 /\ make_isotope Z0 A = Ok (mkIso Z0 A)) \/ (~ (1 <= Z0 <= 118 /\ Z0 <= A < 300) /\ make_isotope Z0 A = Throw).
Proof. exact (make_isotope_cases Z0 A). Qed.
Theorem C49_isotope_zaid_accepted Z0 A : 0 <= Z0 < 256 -> 0 <= A < 2 ^ 32 ->
  (1 <= Z0 <= 118 /\ Z0 <= A < 300 /\ make_isotope_zaid (mkZaid Z0 A) = Ok (mkIso Z0 A)) \/ (~ (1 <= Z0 <= 118 /\ Z0 <= A < 300) /\ make_isotope_zaid (mkZaid Z0 A) = Throw).
Proof. exact (make_isotope_cases Z0 A). Qed.
(** an accepted isotope's ZAID gives it back *)
Theorem C49_zaid_roundtrip Z0 A : 1 <= Z0 <= 118 -> Z0 <= A < 300 -> make_isotope_zaid (isotope_zaid (mkIso Z0 A)) = Ok (mkIso Z0 A) /\ zaid_number (isotope_zaid (mkIso Z0 A)) = 1000 * Z0 + A.
Proof.
  intros H1 H2. split.
  - destruct (C49_isotope_zaid_accepted Z0 A ltac:(lia) ltac:(lia)) as [(_ & _ & E)|(N & _)]; [exact E|lia].
  - unfold zaid_number, wrap32. cbn [isotope_zaid za_Z za_A is_Z is_A]. apply Z.mod_small. lia.
Qed.
(** the strings accepted: white space, standard symbol, one to three digits, white space *)
Theorem C49_string s Z0 A : isotope_of_string s = Ok (mkIso Z0 A) <->
  1 <= Z0 <= 118 /\ Z0 <= A < 300 /\ exists w1 d w2, s = w1 ++ std_symbol Z0 ++ d ++ w2 /\ blanks w1 /\ blanks w2 /\ denotes d A /\ (length d <= 3)%nat.
Proof. exact (isotope_string_std s Z0 A). Qed.
Theorem C49_string_total s : isotope_of_string s = Throw \/ exists i, isotope_of_string s = Ok i.
Proof. exact (isotope_of_string_or s). Qed.
Theorem C49_symbol_roundtrip Z0 A : 1 <= Z0 <= 118 -> Z0 <= A < 300 -> isotope_of_string (isotope_symbol (mkIso Z0 A)) = Ok (mkIso Z0 A).
Proof. exact (isotope_roundtrip Z0 A). Qed.
Theorem C49_order a b : (isotope_lt a b = true <-> is_Z a < is_Z b \/ is_Z a = is_Z b /\ is_A a < is_A b) /\ (isotope_eq a b = true <-> is_Z a = is_Z b /\ is_A a = is_A b).
Proof. split; [exact (isotope_lt_lex a b)|]. rewrite (proj1 isotope_order a b I I). destruct a, b. cbn. split; [intros H; injection H; auto|intros [-> ->]; reflexivity]. Qed.
Example C49_ex : isotope_of_string (list_ascii_of_string "U235") = Ok (mkIso 92 235) /\ isotope_of_string (list_ascii_of_string " H001") = Ok (mkIso 1 1) /\ isotope_of_string (list_ascii_of_string "U91") = Throw
  /\ isotope_symbol (mkIso 92 235) = list_ascii_of_string "U235".
Proof. repeat split; vm_compute; reflexivity. Qed.

(** ** C50. Nuclide(Z, A, level): accepted exactly for valid isotopes and levels 0..2 *)
Theorem C50_nuclide_accepted Z0 A l : 0 <= Z0 < 256 -> 0 <= A < 2 ^ 32 -> 0 <= l < 256 ->
  (1 <= Z0 <= 118 /\ Z0 <= A < 300 /\ l <= 2 /\ make_nuclide Z0 A l = Ok (mkNuc (mkIso Z0 A) l)) \/ (~ (1 <= Z0 <= 118 /\ Z0 <= A < 300 /\ l <= 2) /\ make_nuclide Z0 A l = Throw).
Proof. exact (make_nuclide_cases Z0 A l). Qed.
(** symbols round trip *)
Theorem C50_symbol_roundtrip Z0 A level : 1 <= Z0 <= 118 -> Z0 <= A < 300 -> 0 <= level <= 2 ->
  nuclide_of_string (nuclide_symbol (mkNuc (mkIso Z0 A) level)) = Ok (mkNuc (mkIso Z0 A) level).
Proof. exact (nuclide_symbol_roundtrip Z0 A level). Qed.
Theorem C50_string s Z0 A level : nuclide_of_string s = Ok (mkNuc (mkIso Z0 A) level) <->
  1 <= Z0 <= 118 /\ Z0 <= A < 300 /\ exists w1 d m w2, s = w1 ++ std_symbol Z0 ++ d ++ m ++ w2 /\ blanks w1 /\ blanks w2 /\ denotes d A /\ (length d <= 3)%nat /\ suffix_level m level.
Proof. exact (nuclide_string_std s Z0 A level). Qed.
Theorem C50_string_total s : nuclide_of_string s = Throw \/ exists n, nuclide_of_string s = Ok n.
Proof. exact (nuclide_of_string_or s). Qed.
(** ZAIDs: exactly which nuclides survive the round trip *)
Theorem C50_zaid_roundtrip_partial Z0 A level : 1 <= Z0 <= 118 -> Z0 <= A < 300 -> 0 <= level <= 2 ->
  nuclide_of_zaid (nuclide_zaid (mkNuc (mkIso Z0 A) level)) = Ok (mkNuc (mkIso Z0 A) level) <->
  level = 0 \/ level = 1 /\ A <= largest_isotope Z0 \/ level = 2 /\ A <= largest_isotope Z0 < A + 100.
Proof. exact (zaid_roundtrip Z0 A level). Qed.
(** and the ZAID is the conventional one *)
Theorem C50_zaid_value Z0 A level : 1 <= Z0 <= 118 -> Z0 <= A < 300 -> 0 <= level <= 2 ->
  nuclide_zaid (mkNuc (mkIso Z0 A) level) = mkZaid Z0 (if level =? 0 then A else A + 300 + 100 * level).
Proof. intros H1 H2 H3. unfold nuclide_zaid. cbn [nu_iso nu_level is_Z is_A]. f_equal. destruct (level =? 0) eqn:Q0, (0 <? level) eqn:Q1; try lia. unfold wrap32. rewrite Z.mod_small; lia. Qed.
(** a valid nuclide whose ZAID is read as another one: U143m2 becomes U243m1; one whose ZAID is rejected: H8m1 *)
Theorem C50_zaid_roundtrip_refuted : exists n, make_nuclide 92 143 2 = Ok n /\ nuclide_of_zaid (nuclide_zaid n) = Ok (mkNuc (mkIso 92 243) 1).
Proof. eexists. split; [reflexivity|vm_compute; reflexivity]. Qed.
Theorem C50_zaid_rejected_refuted : exists n, make_nuclide 1 8 1 = Ok n /\ nuclide_of_zaid (nuclide_zaid n) = Throw.
Proof. eexists. split; [reflexivity|vm_compute; reflexivity]. Qed.
(** any ZAID: the decoding ends, with an exception or a nuclide *)
Theorem C50_zaid_total Z0 A : 0 <= Z0 < 256 -> 0 <= A < 2 ^ 32 -> nuclide_of_zaid (mkZaid Z0 A) = Throw \/ exists n, nuclide_of_zaid (mkZaid Z0 A) = Ok n.
Proof. exact (nuclide_of_zaid_or Z0 A). Qed.
(** the nuclide read has the element asked for and a valid mass number; its level is valid for A up to 300 and from 400 to 600 *)
Theorem C50_zaid_valid_partial Z0 A n : 0 <= Z0 < 256 -> 0 <= A < 2 ^ 32 -> nuclide_of_zaid (mkZaid Z0 A) = Ok n ->
  is_Z (nu_iso n) = Z0 /\ 1 <= Z0 <= 118 /\ Z0 <= is_A (nu_iso n) < 300 /\ (A <= 300 \/ 400 <= A <= 600 -> nu_level n <= 2 /\ (if A <=? 300 then A = is_A (nu_iso n) /\ nu_level n = 0 else A = is_A (nu_iso n) + 300 + 100 * nu_level n)).
Proof.
  intros HZ HA E. destruct (Z_le_dec A 300) as [Q|Q].
  - apply zaid_low in E as (-> & H1 & H2); [|lia|lia]. cbn. split; [reflexivity|]. split; [lia|]. split; [lia|]. intros _. destruct (A <=? 300) eqn:Q2; lia.
  - apply zaid_high in E as (H1 & k & K0 & K); [|lia|lia]. cbv zeta in K. destruct K as (-> & K1 & K2). pose proof (largest_pos Z0 H1). cbn [nu_iso is_Z is_A nu_level]. split; [reflexivity|]. split; [lia|]. split; [lia|].
    intros [C|C]; [lia|]. assert (W : wrap32 (A - 400) = A - 400) by (unfold wrap32; apply Z.mod_small; lia). rewrite W in *. destruct (A <=? 300) eqn:Q2; [lia|]. assert (k <= 1) by (destruct (Z_le_dec k 1); [lia|]; specialize (K2 1 ltac:(lia)); lia). rewrite Z.mod_small by lia. lia.
Qed.
(** but not for every ZAID: (1, 1001) is read as H1 at level 7, which Nuclide(1, 1, 7) refuses, and (92, 301) wraps around to U197 at level 39 *)
Theorem C50_zaid_level_refuted : nuclide_of_zaid (mkZaid 1 1001) = Ok (mkNuc (mkIso 1 1) 7) /\ make_nuclide 1 1 7 = Throw.
Proof. split; vm_compute; reflexivity. Qed.
Theorem C50_zaid_wrap_refuted : nuclide_of_zaid (mkZaid 92 301) = Ok (mkNuc (mkIso 92 197) 39).
Proof.
  apply zaid_high; [lia|lia|]. split; [lia|]. exists 42949670. split; [lia|]. cbv zeta. change (wrap32 (301 - 400)) with 4294967197. change (largest_isotope 92) with 243. split; [reflexivity|]. split; [lia|]. intros j Hj. lia.
Qed.
Example C50_ex : nuclide_of_zaid (mkZaid 95 642) = Ok (mkNuc (mkIso 95 242) 1).
Proof. vm_compute. reflexivity. Qed.
Example C50_ex_string : nuclide_of_string (list_ascii_of_string "Am242m1") = Ok (mkNuc (mkIso 95 242) 1) /\ nuclide_symbol (mkNuc (mkIso 95 242) 1) = list_ascii_of_string "Am242m1".
Proof. split; vm_compute; reflexivity. Qed.

(** ** C51. strict total orders whose equality is equality, and hashes are functions of the value *)
Theorem C51_zaid_order : total_order (fun _ => True) zaid_eq zaid_lt. Proof. exact zaid_order. Qed.
Theorem C51_element_order : total_order (fun _ => True) element_eq element_lt. Proof. exact element_order. Qed.
Theorem C51_isotope_order : total_order (fun _ => True) isotope_eq isotope_lt. Proof. exact isotope_order. Qed.
Theorem C51_nuclide_order : total_order (fun _ => True) nuclide_eq nuclide_lt. Proof. exact nuclide_order. Qed.
Theorem C51_lexicographic : (forall a b, zaid_lt a b = true <-> za_Z a < za_Z b \/ za_Z a = za_Z b /\ za_A a < za_A b) /\
  (forall a b, nuclide_lt a b = true <-> is_Z (nu_iso a) < is_Z (nu_iso b) \/ is_Z (nu_iso a) = is_Z (nu_iso b) /\ (is_A (nu_iso a) < is_A (nu_iso b) \/ is_A (nu_iso a) = is_A (nu_iso b) /\ nu_level a < nu_level b)).
Proof. exact (conj zaid_lt_lex nuclide_lt_lex). Qed.
Theorem C51_hash (h : Z -> Z) : (forall a b, zaid_eq a b = true -> zaid_hash h a = zaid_hash h b) /\ (forall a b, element_eq a b = true -> element_hash h a = element_hash h b) /\
  (forall a b, isotope_eq a b = true -> isotope_hash h a = isotope_hash h b) /\ (forall a b, nuclide_eq a b = true -> nuclide_hash h a = nuclide_hash h b).
Proof.
  split; [|split; [|split]]; intros a b H.
  - apply (proj1 zaid_order) in H as ->; auto.
  - apply (proj1 element_order) in H as ->; auto.
  - apply (proj1 isotope_order) in H as ->; auto.
  - apply (proj1 nuclide_order) in H as ->; auto.
Qed.
(** with an injective std::hash<uint32_t>, isotope hashes are collision-free *)
Theorem C51_isotope_hash_injective a b h : (forall x y, h x = h y -> x = y) -> 1 <= is_Z a <= 118 -> 1 <= is_Z b <= 118 -> is_Z a <= is_A a < 300 -> is_Z b <= is_A b < 300 -> isotope_hash h a = isotope_hash h b <-> a = b.
Proof. exact (isotope_hash_key a b h). Qed.
Example C51_ex : nuclide_lt (mkNuc (mkIso 92 235) 1) (mkNuc (mkIso 92 238) 0) = true /\ nuclide_lt (mkNuc (mkIso 92 238) 0) (mkNuc (mkIso 92 238) 1) = true.
Proof. split; reflexivity. Qed.

Print Assumptions C48_element_accepted.
Print Assumptions C48_symbol_standard.
Print Assumptions C48_distinct.
Print Assumptions C48_lookup.
Print Assumptions C48_lookup_total.
Print Assumptions C48_lookup_own.
Print Assumptions C66_standard_names_partial.
Print Assumptions C66_standard_names_refuted.
Print Assumptions C66_standard_names_exact_refuted.
Print Assumptions C49_isotope_accepted.
Print Assumptions C49_isotope_zaid_accepted.
Print Assumptions C49_zaid_roundtrip.
Print Assumptions C49_string.
Print Assumptions C49_string_total.
Print Assumptions C49_symbol_roundtrip.
Print Assumptions C49_order.
Print Assumptions C50_nuclide_accepted.
Print Assumptions C50_symbol_roundtrip.
Print Assumptions C50_string.
Print Assumptions C50_string_total.
Print Assumptions C50_zaid_roundtrip_partial.
Print Assumptions C50_zaid_value.
Print Assumptions C50_zaid_roundtrip_refuted.
Print Assumptions C50_zaid_rejected_refuted.
Print Assumptions C50_zaid_total.
Print Assumptions C50_zaid_valid_partial.
Print Assumptions C50_zaid_level_refuted.
Print Assumptions C50_zaid_wrap_refuted.
Print Assumptions C51_zaid_order.
Print Assumptions C51_element_order.
Print Assumptions C51_isotope_order.
Print Assumptions C51_nuclide_order.
Print Assumptions C51_lexicographic.
Print Assumptions C51_hash.
Print Assumptions C51_isotope_hash_injective.
