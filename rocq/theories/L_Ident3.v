(** * Link between the specification vocabulary of S_Ident and the model; orders and hashes *)
From Verif Require Import Base L_Search M_Grid M_Ident L_Ident L_Ident2 S_Ident.
From Coq Require Import String Ascii List. Import ListNotations.
From Coq Require Import ZifyBool ZifyNat.
Local Open Scope list_scope.
Local Open Scope Z_scope.
Local Open Scope bool_scope.

Lemma blank_space c : blank c <-> is_space c = true.
Proof.
  unfold blank, is_space, code, nat_of_ascii. generalize (N_of_ascii c). intros n. cbn [In]. lia.
Qed.
Lemma blanks_all w : blanks w <-> all is_space w.
Proof. unfold blanks, all. split; intros H c I; apply blank_space; auto. Qed.
Lemma code_nat d : (d < 10)%nat -> code (ascii_of_nat (48 + d)) = 48 + Z.of_nat d.
Proof. intros H. do 10 (destruct d as [|d]; [reflexivity|]). lia. Qed.
Lemma digit_nat c : is_digit c = true -> exists d, (d < 10)%nat /\ c = ascii_of_nat (48 + d).
Proof.
  intros H. unfold is_digit in H. exists (Z.to_nat (code c - 48)). split; [lia|]. apply code_inj. rewrite code_nat by lia. lia.
Qed.
Lemma stoul_snoc w c : stoul (w ++ [c]) = 10 * stoul w + (code c - 48).
Proof. unfold stoul. rewrite fold_left_app. reflexivity. Qed.
Lemma denotes_iff w v : denotes w v <-> all is_digit w /\ w <> [] /\ stoul w = v.
Proof.
  split.
  - intros H. induction H as [d Hd|w v d H (A & N & E) Hd].
    + split; [|split; [discriminate|unfold stoul; cbn [fold_left]; rewrite code_nat by lia; lia]]. apply all_cons. split; [|apply all_nil]. unfold is_digit. rewrite code_nat by lia. lia.
    + split; [|split].
      * apply all_app. split; [exact A|]. apply all_cons. split; [|apply all_nil]. unfold is_digit. rewrite code_nat by lia. lia.
      * destruct w; discriminate.
      * rewrite stoul_snoc, code_nat, E by lia. lia.
  - intros (A & N & <-). revert A N. induction w as [|c w IH] using rev_ind; intros A N; [congruence|]. apply all_app in A as [A C]. apply all_cons in C as [C _]. destruct (digit_nat c C) as (d & Hd & ->).
    rewrite stoul_snoc, code_nat by lia. replace (48 + Z.of_nat d - 48) with (Z.of_nat d) by lia. destruct w as [|x w].
    + apply denotes_digit, Hd.
    + apply denotes_more; [|exact Hd]. apply IH; [exact A|discriminate].
Qed.
Lemma mass_denotes d A : mass_like d /\ stoul d = A <-> denotes d A /\ (length d <= 3)%nat.
Proof.
  rewrite denotes_iff. unfold mass_like. split.
  - intros ((D & L) & E). repeat split; auto; [|lia]. intros ->. cbn in L. lia.
  - intros ((D & N & E) & L). repeat split; auto. destruct d; [congruence|cbn; lia].
Qed.
(** the table against the standard one *)
Definition same_symbols : bool := forallb (fun k => str_eqb (element_symbol (Z.of_nat k + 1)) (std_symbol (Z.of_nat k + 1))) (seq 0 118).
Definition same_names : bool := forallb (fun k => (Z.of_nat k + 1 =? 9) || (Z.of_nat k + 1 =? 42) || str_eqb (element_name (Z.of_nat k + 1)) (std_name (Z.of_nat k + 1))) (seq 0 118).
Lemma str_eqb_eq a : forall b, str_eqb a b = true -> a = b.
Proof. induction a as [|x a IH]; intros [|y b]; cbn; try discriminate; [auto|]. rewrite andb_true_iff. intros [H1 H2]. apply Ascii.eqb_eq in H1 as ->. f_equal. auto. Qed.
Lemma symbol_std Z0 : 1 <= Z0 <= 118 -> element_symbol Z0 = std_symbol Z0.
Proof.
  intros H. assert (T : same_symbols = true) by (vm_compute; reflexivity). unfold same_symbols in T. rewrite forallb_forall in T. specialize (T (Z.to_nat (Z0 - 1)) ltac:(apply List.in_seq; lia)). replace (Z.of_nat (Z.to_nat (Z0 - 1)) + 1) with Z0 in T by lia. apply str_eqb_eq, T.
Qed.
Lemma name_std Z0 : 1 <= Z0 <= 118 -> Z0 <> 9 -> Z0 <> 42 -> element_name Z0 = std_name Z0.
Proof.
  intros H H1 H2. assert (T : same_names = true) by (vm_compute; reflexivity). unfold same_names in T. rewrite forallb_forall in T. specialize (T (Z.to_nat (Z0 - 1)) ltac:(apply List.in_seq; lia)). replace (Z.of_nat (Z.to_nat (Z0 - 1)) + 1) with Z0 in T by lia.
  apply str_eqb_eq. destruct (str_eqb (element_name Z0) (std_name Z0)); [reflexivity|]. lia.
Qed.
Lemma element_of_string_iff s Z0 : element_of_string s = Ok Z0 <-> 1 <= Z0 <= 118 /\ exists w1 w2, blanks w1 /\ blanks w2 /\ (s = w1 ++ std_symbol Z0 ++ w2 \/ s = w1 ++ element_name Z0 ++ w2).
Proof.
  split.
  - intros H. apply element_of_string_inv in H as (R & w1 & w2 & W1 & W2 & C). split; [exact R|]. exists w1, w2. rewrite !blanks_all, <- symbol_std by exact R. auto.
  - intros (R & w1 & w2 & W1 & W2 & C). rewrite blanks_all in W1, W2. rewrite <- symbol_std in C by exact R. destruct C as [->| ->]; [apply element_of_symbol|apply element_of_name]; auto.
Qed.
Lemma isotope_string_std s Z0 A : isotope_of_string s = Ok (mkIso Z0 A) <->
  1 <= Z0 <= 118 /\ Z0 <= A < 300 /\ exists w1 d w2, s = w1 ++ std_symbol Z0 ++ d ++ w2 /\ blanks w1 /\ blanks w2 /\ denotes d A /\ (length d <= 3)%nat.
Proof.
  rewrite isotope_of_string_iff. split; intros (R & HA & w1 & d & w2 & E & W1 & W2 & D); (split; [exact R|]; split; [exact HA|]; exists w1, d, w2).
  - rewrite !blanks_all, <- symbol_std by exact R. apply mass_denotes in D. auto.
  - rewrite blanks_all in W1, W2. rewrite symbol_std by exact R. apply mass_denotes in D. auto.
Qed.
Lemma nuclide_string_std s Z0 A level : nuclide_of_string s = Ok (mkNuc (mkIso Z0 A) level) <->
  1 <= Z0 <= 118 /\ Z0 <= A < 300 /\ exists w1 d m w2, s = w1 ++ std_symbol Z0 ++ d ++ m ++ w2 /\ blanks w1 /\ blanks w2 /\ denotes d A /\ (length d <= 3)%nat /\ suffix_level m level.
Proof.
  rewrite nuclide_of_string_iff. split; intros (R & HA & w1 & d & m & w2 & E & W1 & W2 & D); (split; [exact R|]; split; [exact HA|]; exists w1, d, m, w2).
  - destruct D as (D1 & D2 & D3). destruct (proj1 (mass_denotes d A) (conj D1 D2)) as [D4 D5]. rewrite !blanks_all, <- symbol_std by exact R. auto 8.
  - destruct D as (D1 & D2 & D3). destruct (proj2 (mass_denotes d A) (conj D1 D2)) as [D4 D5]. rewrite blanks_all in W1, W2. rewrite symbol_std by exact R. auto 8.
Qed.
(** make_isotope / make_nuclide *)
Lemma make_element_cases Z0 : 0 <= Z0 < 256 -> (1 <= Z0 <= 118 /\ make_element Z0 = Ok Z0) \/ (~ 1 <= Z0 <= 118 /\ make_element Z0 = Throw).
Proof. intros H. unfold make_element, N_ELEM. destruct ((Z0 =? 0) || (118 <? Z0)) eqn:Q; [right|left]; (split; [lia|reflexivity]). Qed.
Lemma make_isotope_cases Z0 A : 0 <= Z0 < 256 -> 0 <= A < 2 ^ 32 -> (1 <= Z0 <= 118 /\ Z0 <= A < 300 /\ make_isotope Z0 A = Ok (mkIso Z0 A)) \/ (~ (1 <= Z0 <= 118 /\ Z0 <= A < 300) /\ make_isotope Z0 A = Throw).
Proof.
  intros HZ HA. unfold make_isotope. destruct (make_element_cases Z0 HZ) as [[H ->]|[H ->]]; cbn [bind]; [|right; split; [lia|reflexivity]]. unfold check_isotope.
  destruct (A <? Z0) eqn:Q1; [right; split; [lia|reflexivity]|]. destruct (300 <=? A) eqn:Q2; [right; split; [lia|reflexivity]|]. left. repeat split; lia.
Qed.
Lemma make_nuclide_cases Z0 A l : 0 <= Z0 < 256 -> 0 <= A < 2 ^ 32 -> 0 <= l < 256 -> (1 <= Z0 <= 118 /\ Z0 <= A < 300 /\ l <= 2 /\ make_nuclide Z0 A l = Ok (mkNuc (mkIso Z0 A) l)) \/ (~ (1 <= Z0 <= 118 /\ Z0 <= A < 300 /\ l <= 2) /\ make_nuclide Z0 A l = Throw).
Proof.
  intros HZ HA HL. unfold make_nuclide. destruct (make_isotope_cases Z0 A HZ HA) as [(H1 & H2 & ->)|(H & ->)]; cbn [bind]; [|right; split; [lia|reflexivity]]. unfold make_nuclide_iso. destruct (2 <? l) eqn:Q; [right; split; [lia|reflexivity]|left; repeat split; lia].
Qed.
(** orders *)
Lemma zaid_order : total_order (fun _ => True) zaid_eq zaid_lt.
Proof.
  unfold total_order, zaid_eq, zaid_lt. split; [|split; [|split]].
  - intros [a1 a2] [b1 b2] _ _. cbn. split; [intros H; f_equal; lia|intros H; injection H as -> ->; lia].
  - intros [a1 a2] _. cbn. rewrite !Z.ltb_irrefl. reflexivity.
  - intros [a1 a2] [b1 b2] [c1 c2] _ _ _. cbn. repeat match goal with |- context [?x <? ?y] => destruct (Z.ltb_spec x y) end; try lia; congruence.
  - intros [a1 a2] [b1 b2] _ _. cbn. repeat match goal with |- context [?x <? ?y] => destruct (Z.ltb_spec x y) end; lia.
Qed.
Lemma element_order : total_order (fun _ => True) element_eq element_lt.
Proof. unfold total_order, element_eq, element_lt. repeat split; intros; lia. Qed.
Lemma isotope_order : total_order (fun _ => True) isotope_eq isotope_lt.
Proof.
  unfold total_order, isotope_eq, isotope_lt. split; [|split; [|split]].
  - intros [a1 a2] [b1 b2] _ _. cbn. destruct ((a1 =? b1) && (a2 =? b2)) eqn:Q; (split; [intros H; try discriminate; f_equal; lia|intros H; injection H as -> ->; lia]).
  - intros [a1 a2] _. cbn. rewrite !Z.ltb_irrefl. reflexivity.
  - intros [a1 a2] [b1 b2] [c1 c2] _ _ _. cbn. repeat match goal with |- context [?x <? ?y] => destruct (Z.ltb_spec x y) end; try lia; congruence.
  - intros [a1 a2] [b1 b2] _ _. cbn. destruct ((a1 =? b1) && (a2 =? b2)) eqn:Q; repeat match goal with |- context [?x <? ?y] => destruct (Z.ltb_spec x y) end; lia.
Qed.
Lemma nuclide_order : total_order (fun _ => True) nuclide_eq nuclide_lt.
Proof.
  unfold total_order, nuclide_eq, nuclide_lt. split; [|split; [|split]].
  - intros [[a1 a2] a3] [[b1 b2] b3] _ _. cbn. destruct ((a1 =? b1) && (a2 =? b2) && (a3 =? b3)) eqn:Q; (split; [intros H; first [discriminate|f_equal; [f_equal|]; lia]|intros H; injection H as -> -> ->; lia]).
  - intros [[a1 a2] a3] _. cbn. rewrite !Z.ltb_irrefl. reflexivity.
  - intros [[a1 a2] a3] [[b1 b2] b3] [[c1 c2] c3] _ _ _. cbn. repeat match goal with |- context [?x <? ?y] => destruct (Z.ltb_spec x y) end; try lia; congruence.
  - intros [[a1 a2] a3] [[b1 b2] b3] _ _. cbn. destruct ((a1 =? b1) && (a2 =? b2) && (a3 =? b3)) eqn:Q; repeat match goal with |- context [?x <? ?y] => destruct (Z.ltb_spec x y) end; lia.
Qed.
(** lexicographic *)
Lemma zaid_lt_lex a b : zaid_lt a b = true <-> za_Z a < za_Z b \/ za_Z a = za_Z b /\ za_A a < za_A b.
Proof. unfold zaid_lt. repeat match goal with |- context [?x <? ?y] => destruct (Z.ltb_spec x y) end; split; intros; try discriminate; lia. Qed.
Lemma isotope_lt_lex a b : isotope_lt a b = true <-> is_Z a < is_Z b \/ is_Z a = is_Z b /\ is_A a < is_A b.
Proof. unfold isotope_lt. repeat match goal with |- context [?x <? ?y] => destruct (Z.ltb_spec x y) end; split; intros; try discriminate; lia. Qed.
Lemma nuclide_lt_lex a b : nuclide_lt a b = true <-> is_Z (nu_iso a) < is_Z (nu_iso b) \/ is_Z (nu_iso a) = is_Z (nu_iso b) /\ (is_A (nu_iso a) < is_A (nu_iso b) \/ is_A (nu_iso a) = is_A (nu_iso b) /\ nu_level a < nu_level b).
Proof. unfold nuclide_lt. repeat match goal with |- context [?x <? ?y] => destruct (Z.ltb_spec x y) end; split; intros; try discriminate; lia. Qed.
(** hashes: the hashed number determines valid isotopes; nuclides collide *)
Lemma isotope_hash_key a b h : (forall x y, h x = h y -> x = y) -> 1 <= is_Z a <= 118 -> 1 <= is_Z b <= 118 -> is_Z a <= is_A a < 300 -> is_Z b <= is_A b < 300 -> isotope_hash h a = isotope_hash h b <-> a = b.
Proof.
  intros Hh A1 B1 A2 B2. split; [|intros ->; reflexivity]. unfold isotope_hash. intros H. apply Hh in H. destruct a as [a1 a2], b as [b1 b2]. cbn [is_Z is_A] in *. unfold wrap32 in H. rewrite !Z.mod_small in H by lia. f_equal; lia.
Qed.
