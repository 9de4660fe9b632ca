(** * Lemmas for C86: regular expressions of the xsdir reader *)
From Coq Require Import String Ascii List. Import ListNotations.
From Coq Require Import Lia ZifyBool ZifyNat.
From Verif Require Import Base M_Grid M_Ident L_Ident L_Ident2 S_Ident L_Ident3 M_Library M_Xsdir S_Xsdir.
Local Open Scope list_scope.
Local Open Scope Z_scope.
Local Open Scope bool_scope.

(** ** searching *)
Lemma find_here (e : regex) c r q l : e (c, r) = q :: l -> find_from e c r = Some ((c, r), q).
Proof. intros H. destruct r; cbn [find_from]; rewrite H; reflexivity. Qed.
Lemma find_skip (e : regex) : forall pre c r, (forall a b, pre = a ++ b -> b <> [] -> e (rev a ++ c, b ++ r) = []) -> find_from e c (pre ++ r) = find_from e (rev pre ++ c) r.
Proof.
  induction pre as [|x pre IH]; intros c r H; [reflexivity|]. cbn [app find_from]. rewrite (H [] (x :: pre) eq_refl ltac:(discriminate) : e (c, x :: pre ++ r) = []). rewrite IH.
  - cbn [rev]. rewrite <- app_assoc. reflexivity.
  - intros a b -> Hb. specialize (H (x :: a) b eq_refl Hb). cbn [rev] in H. rewrite <- app_assoc in H. exact H.
Qed.
Lemma find_none (e : regex) : forall r c, (forall a b, r = a ++ b -> e (rev a ++ c, b) = []) -> find_from e c r = None.
Proof.
  induction r as [|x r IH]; intros c H; cbn [find_from]; rewrite (H [] _ eq_refl : e (c, _) = []); [reflexivity|]. apply IH. intros a b ->. specialize (H (x :: a) b eq_refl). cbn [rev] in H. rewrite <- app_assoc in H. exact H.
Qed.
Lemma match_str_app c w r q : snd q = r -> match_str ((c, w ++ r), q) = w.
Proof. intros <-. unfold match_str. cbn [fst snd]. rewrite app_length. replace (length w + length (snd q) - length (snd q))%nat with (length w + 0)%nat by lia. rewrite firstn_app_2. cbn. apply app_nil_r. Qed.
(** ** replacing, as a relation *)
Inductive replaces (e : position -> list (str * position)) : str -> str -> str -> Prop :=
| rep_end c : e (c, []) = [] -> replaces e c [] []
| rep_copy c x r o : e (c, x :: r) = [] -> replaces e (x :: c) r o -> replaces e c (x :: r) (x :: o)
| rep_match c r t q l o : e (c, r) = (t, q) :: l -> (length (snd q) < length r)%nat -> replaces e (fst q) (snd q) o -> replaces e c r (t ++ o).
Lemma replaces_all e c r o : replaces e c r o -> forall f, (length r < f)%nat -> replace_all f e c r = o.
Proof.
  induction 1 as [c H|c x r o H _ IH|c r t q l o H L _ IH]; intros [|f] Hf; try lia; cbn [replace_all].
  - rewrite H. reflexivity.
  - rewrite H. f_equal. apply IH. cbn in Hf. lia.
  - rewrite H. f_equal. apply IH. lia.
Qed.
Lemma regex_replace_is e s o : replaces e [] s o -> regex_replace e s = o.
Proof. intros H. apply (replaces_all _ _ _ _ H). lia. Qed.
Lemma replaces_copy e : forall w c r o, (forall a b, w = a ++ b -> b <> [] -> e (rev a ++ c, b ++ r) = []) -> replaces e (rev w ++ c) r o -> replaces e c (w ++ r) (w ++ o).
Proof.
  induction w as [|x w IH]; intros c r o H R; [exact R|]. cbn [app]. apply rep_copy; [exact (H [] (x :: w) eq_refl ltac:(discriminate))|]. apply IH.
  - intros a b -> Hb. specialize (H (x :: a) b eq_refl Hb). cbn [rev] in H. rewrite <- app_assoc in H. exact H.
  - cbn [rev] in R. rewrite <- app_assoc in R. exact R.
Qed.

(** ** keywords *)
Lemma code_nat_of c : code c = Z.of_nat (nat_of_ascii c).
Proof. unfold code, nat_of_ascii. lia. Qed.
Lemma ci_chr_iff c x : (32 <= nat_of_ascii c)%nat -> ci_chr c x = true <-> x = c \/ (nat_of_ascii x + 32 = nat_of_ascii c)%nat.
Proof.
  intros H. unfold ci_chr. rewrite !code_nat_of. split.
  - intros E. destruct (Nat.eq_dec (nat_of_ascii x) (nat_of_ascii c)) as [E0|E0]; [left|right; lia]. rewrite <- (ascii_nat_embedding x), <- (ascii_nat_embedding c), E0. reflexivity.
  - intros [->|E]; lia.
Qed.
Definition lower_word (w : str) : Prop := Forall (fun c => (32 <= nat_of_ascii c)%nat) w.
Lemma first_ci : forall w u c r, lower_word w -> spells w u -> rx_ci w (c, u ++ r) = [(rev u ++ c, r)].
Proof.
  induction w as [|k w IH]; intros u c r L S; inversion S as [|? x ? u' Hx S']; subst; [reflexivity|]. inversion L as [|? ? Hk L']; subst. cbn [rx_ci fold_right]. unfold rx_seq at 1. cbn [app]. rewrite first_chr by (apply ci_chr_iff; assumption).
  cbn [flat_map]. fold (rx_ci w). rewrite (IH u' (x :: c) r L' S'). cbn [rev app]. rewrite <- app_assoc. reflexivity.
Qed.
Lemma ci_begins : forall w c r q, lower_word w -> In q (rx_ci w (c, r)) -> begins w r.
Proof.
  induction w as [|k w IH]; intros c r q L H; [exists [], r; split; [reflexivity|constructor]|]. inversion L as [|? ? Hk L']; subst. cbn [rx_ci fold_right] in H. apply in_seq in H as ([c1 r1] & H1 & H2).
  apply in_chr in H1 as (x & Hx & -> & ->). fold (rx_ci w) in H2. destruct (IH _ _ _ L' H2) as (u & v & -> & S). exists (x :: u), v. split; [reflexivity|]. constructor; [apply ci_chr_iff; assumption|exact S].
Qed.
Lemma ci_no w c r e : lower_word w -> ~ begins w r -> rx_seq (rx_ci w) e (c, r) = [].
Proof. intros L H. unfold rx_seq. destruct (rx_ci w (c, r)) as [|q l] eqn:E; [reflexivity|]. exfalso. apply H, (ci_begins w c r q L). rewrite E. left. reflexivity. Qed.
Lemma ci_no0 w c r : lower_word w -> ~ begins w r -> rx_ci w (c, r) = [].
Proof. intros L H. destruct (rx_ci w (c, r)) as [|q l] eqn:E; [reflexivity|]. exfalso. apply H, (ci_begins w c r q L). rewrite E. left. reflexivity. Qed.
Ltac low := repeat (constructor; [vm_compute; lia|]); constructor.
Lemma low_atomic : lower_word kw_atomic. Proof. low. Qed.
Lemma low_weight : lower_word kw_weight. Proof. low. Qed.
Lemma low_ratios : lower_word kw_ratios. Proof. low. Qed.
Lemma low_datapath : lower_word kw_datapath. Proof. low. Qed.
Lemma low_directory : lower_word kw_directory. Proof. low. Qed.

(** ** classes *)
Lemma digits_all w : digits w <-> w <> [] /\ all is_digit w.
Proof. unfold digits, all, is_digit. split; intros [H1 H2]; (split; [exact H1|]); intros c Hc; specialize (H2 c Hc); rewrite code_nat_of in *; lia. Qed.
Lemma gap_all w : gap w <-> w <> [] /\ all is_space w.
Proof. unfold gap. rewrite blanks_all. tauto. Qed.
Lemma nonempty_cons {A} (w : list A) : w <> [] -> exists x r, w = x :: r.
Proof. destruct w; [congruence|eauto]. Qed.
Lemma space_stop_all p w r : (exists x t, w = x :: t) -> all is_space w -> (forall c, is_space c = true -> p c = false) -> stops p (w ++ r).
Proof. intros (x & t & ->) W H. cbn. apply H, W. left. reflexivity. Qed.
Lemma first_plus p w c r : w <> [] -> all p w -> stops p r -> exists l, rx_plus p (c, w ++ r) = (rev w ++ c, r) :: l.
Proof.
  intros N W S. destruct (nonempty_cons w N) as (x & t & ->). apply all_cons in W as [P W]. destruct (first_star p t (x :: c) r W S) as (l & E). cbn [app].
  destruct (first_seq (rx_chr p) (rx_star p) (c, x :: t ++ r) (x :: c, t ++ r) [] _ l (first_chr _ _ _ _ P) E) as (l' & E'). exists l'. unfold rx_plus. rewrite E'. cbn [rev]. rewrite <- app_assoc. reflexivity.
Qed.
Lemma digit_not_space c : is_digit c = true -> is_space c = false.
Proof. unfold is_digit, is_space. lia. Qed.
Lemma space_not_digit c : is_space c = true -> is_digit c = false.
Proof. unfold is_digit, is_space. lia. Qed.
Lemma stops_digits (w : str) r : w <> [] -> all is_digit w -> stops is_space (w ++ r).
Proof. intros N W. destruct (nonempty_cons w N) as (x & t & ->). cbn. apply digit_not_space, W. left. reflexivity. Qed.
Lemma stops_spaces (w : str) r : w <> [] -> all is_space w -> stops is_digit (w ++ r).
Proof. intros N W. destruct (nonempty_cons w N) as (x & t & ->). cbn. apply space_not_digit, W. left. reflexivity. Qed.
Ltac seq1 E := match type of E with exists _, _ => destruct E as (? & E) end.
Lemma first_4to6 w c r : (4 <= length w <= 6)%nat -> all is_digit w -> stops is_digit r -> exists l, rx_4to6 is_digit (c, w ++ r) = (rev w ++ c, r) :: l.
Proof.
  intros L W S. destruct w as [|a [|b [|d [|e w]]]]; try (cbn in L; lia). repeat (apply all_cons in W as [? W]). unfold rx_4to6, rx_seq at 1. cbn [app]. rewrite first_chr by assumption. cbn [flat_map]. unfold rx_seq at 1. rewrite first_chr by assumption. cbn [flat_map].
  unfold rx_seq at 1. rewrite first_chr by assumption. cbn [flat_map]. unfold rx_seq at 1. rewrite first_chr by assumption. cbn [flat_map]. rewrite !app_nil_r.
  destruct (first_upto is_digit 2 w (e :: d :: b :: a :: c) r W) as (l & E); [right; split; [cbn in L; lia|exact S]|]. exists l. rewrite E. cbn [rev]. rewrite <- !app_assoc. reflexivity.
Qed.
Lemma first_decimal (i f : str) c r : i <> [] -> all is_digit i -> f <> [] -> all is_digit f -> stops is_digit r -> exists l, rx_decimal (c, i ++ "."%char :: f ++ r) = (rev (i ++ "."%char :: f) ++ c, r) :: l.
Proof.
  intros N1 W1 N2 W2 S. destruct (first_plus is_digit i c ("."%char :: f ++ r) N1 W1) as (l1 & E1); [reflexivity|]. destruct (first_plus is_digit f ("."%char :: rev i ++ c) r N2 W2 S) as (l2 & E2).
  destruct (first_seq (rx_chr is_dot) (rx_plus is_digit) (rev i ++ c, "."%char :: f ++ r) ("."%char :: rev i ++ c, f ++ r) [] _ l2 eq_refl E2) as (l3 & E3).
  destruct (first_seq (rx_plus is_digit) (rx_seq (rx_chr is_dot) (rx_plus is_digit)) _ _ _ _ _ E1 E3) as (l4 & E4). exists l4. unfold rx_decimal. rewrite E4. rewrite rev_app_distr. cbn [rev]. rewrite <- !app_assoc. reflexivity.
Qed.
Lemma first_pair p c r : pair_ok p -> stops is_digit r -> exists l, rx_pair (c, pair_text p ++ r) = (rev (pair_text p) ++ c, r) :: l.
Proof.
  intros (G1 & Dz & Lz & G2 & Di & Df) S. apply gap_all in G1 as [N1 W1], G2 as [N2 W2]. apply digits_all in Dz as [Nz Wz], Di as [Ni Wi], Df as [Nf Wf]. destruct p as [g1 z g2 i f]. unfold pair_text, p_value. cbn [p_gap1 p_zaid p_gap2 p_int p_frac] in *.
  replace ((g1 ++ z ++ g2 ++ i ++ "."%char :: f) ++ r) with (g1 ++ z ++ g2 ++ i ++ "."%char :: f ++ r) by (rewrite <- !app_assoc; reflexivity).
  destruct (first_plus is_space g1 c (z ++ g2 ++ i ++ "."%char :: f ++ r) N1 W1) as (l1 & E1); [apply stops_digits; assumption|].
  destruct (first_4to6 z (rev g1 ++ c) (g2 ++ i ++ "."%char :: f ++ r) Lz Wz) as (l2 & E2); [apply stops_spaces; assumption|].
  destruct (first_plus is_space g2 (rev z ++ rev g1 ++ c) (i ++ "."%char :: f ++ r) N2 W2) as (l3 & E3); [apply stops_digits; assumption|].
  destruct (first_decimal i f (rev g2 ++ rev z ++ rev g1 ++ c) r Ni Wi Nf Wf S) as (l4 & E4).
  destruct (first_seq _ rx_decimal _ _ _ _ _ E3 E4) as (l5 & E5). destruct (first_seq _ _ _ _ _ _ _ E2 E5) as (l6 & E6). destruct (first_seq _ _ _ _ _ _ _ E1 E6) as (l7 & E7).
  exists l7. unfold rx_pair. rewrite E7. rewrite !rev_app_distr, <- !app_assoc. reflexivity.
Qed.
Lemma in_4to6 c r c' r' : In (c', r') (rx_4to6 is_digit (c, r)) -> exists w, (4 <= length w <= 6)%nat /\ all is_digit w /\ r = w ++ r' /\ c' = rev w ++ c.
Proof.
  unfold rx_4to6. intros H. apply in_seq in H as ([] & H1 & H). apply in_chr in H1 as (a & A & -> & ->). apply in_seq in H as ([] & H1 & H). apply in_chr in H1 as (b & B & -> & ->). apply in_seq in H as ([] & H1 & H). apply in_chr in H1 as (d & D & -> & ->).
  apply in_seq in H as ([] & H1 & H). apply in_chr in H1 as (e & E & -> & ->). apply in_upto in H as (w & L & W & -> & ->). exists (a :: b :: d :: e :: w). split; [cbn; lia|]. split; [repeat (apply all_cons; split; [assumption|]); exact W|]. split; [reflexivity|]. cbn [rev]. rewrite <- !app_assoc. reflexivity.
Qed.
Lemma dot_is c : is_dot c = true -> c = "."%char.
Proof. unfold is_dot. intros H. apply code_inj. change (code "."%char) with 46. lia. Qed.
Lemma in_pair c r q : In q (rx_pair (c, r)) -> exists p, pair_ok p /\ r = pair_text p ++ snd q.
Proof.
  destruct q as [c' r']. unfold rx_pair, rx_decimal. intros H. apply in_seq in H as ([] & H1 & H). apply in_plus in H1 as (x1 & g1 & W1 & -> & ->). apply in_seq in H as ([] & H1 & H). apply in_4to6 in H1 as (z & Lz & Wz & -> & ->).
  apply in_seq in H as ([] & H1 & H). apply in_plus in H1 as (x2 & g2 & W2 & -> & ->). apply in_seq in H as ([] & H1 & H). apply in_plus in H1 as (x3 & i & W3 & -> & ->). apply in_seq in H as ([] & H1 & H). apply in_chr in H1 as (d & D & -> & ->). apply dot_is in D as ->.
  apply in_plus in H as (x4 & f & W4 & -> & ->). exists (mkPair (x1 :: g1) z (x2 :: g2) (x3 :: i) (x4 :: f)). split.
  - unfold pair_ok. cbn [p_gap1 p_zaid p_gap2 p_int p_frac]. rewrite !gap_all, !digits_all. repeat split; try discriminate; try assumption; try lia. intros ->. cbn in Lz. lia.
  - cbn [snd]. unfold pair_text, p_value. cbn [p_gap1 p_zaid p_gap2 p_int p_frac]. rewrite <- !app_assoc. reflexivity.
Qed.
Lemma ends_no_pair post c : ends_pairs post -> rx_pair (c, post) = [].
Proof. intros [_ H]. destruct (rx_pair (c, post)) as [|q l] eqn:E; [reflexivity|]. destruct (in_pair c post q) as (p & P & R); [rewrite E; left; reflexivity|]. elim (H p _ P R). Qed.
Lemma ends_stop post : ends_pairs post -> stops is_digit post.
Proof. intros [H _]. destruct post as [|x r]; [exact I|]. cbn. destruct (is_digit x) eqn:E; [|reflexivity]. elim H. exists x, r. split; [reflexivity|]. unfold is_digit in E. rewrite code_nat_of in E. lia. Qed.
Lemma pair_text_long p : pair_ok p -> (0 < length (pair_text p))%nat.
Proof. intros ((N & _) & _). unfold pair_text. rewrite app_length. destruct (p_gap1 p); [congruence|cbn; lia]. Qed.
Lemma pairs_stop ps post : Forall pair_ok ps -> ends_pairs post -> stops is_digit (flat_map pair_text ps ++ post).
Proof.
  intros F E. destruct ps as [|p ps]; [apply ends_stop, E|]. inversion F as [|? ? (G & _) _]; subst. apply gap_all in G as [N W]. cbn [flat_map]. unfold pair_text at 1. rewrite <- !app_assoc. apply stops_spaces; assumption.
Qed.
Lemma first_rep : forall ps fuel c post, (length ps <= fuel)%nat -> Forall pair_ok ps -> ends_pairs post -> exists l, rx_rep fuel rx_pair (c, flat_map pair_text ps ++ post) = (rev (flat_map pair_text ps) ++ c, post) :: l.
Proof.
  induction ps as [|p ps IH]; intros fuel c post L F E.
  - cbn [flat_map app rev]. destruct fuel; cbn [rx_rep]; [eexists; reflexivity|]. rewrite (ends_no_pair post c E). cbn. eexists; reflexivity.
  - destruct fuel as [|fuel]; [cbn in L; lia|]. inversion F as [|? ? P F']; subst. cbn [flat_map]. rewrite <- app_assoc. destruct (first_pair p c (flat_map pair_text ps ++ post) P (pairs_stop ps post F' E)) as (l1 & E1).
    destruct (IH fuel (rev (pair_text p) ++ c) post ltac:(cbn in L; lia) F' E) as (l2 & E2). cbn [rx_rep]. rewrite E1. cbn [flat_map]. rewrite E2. cbn [app]. rewrite rev_app_distr, <- (app_assoc (rev (flat_map pair_text ps))). eexists; reflexivity.
Qed.
Lemma pairs_length : forall ps, Forall pair_ok ps -> (length ps <= length (flat_map pair_text ps))%nat.
Proof. induction 1 as [|p ps P _ IH]; [reflexivity|]. cbn [flat_map length]. rewrite app_length. pose proof (pair_text_long p P). lia. Qed.
Lemma first_rep1 ps c post : ps <> [] -> Forall pair_ok ps -> ends_pairs post -> exists l, rx_rep1 rx_pair (c, flat_map pair_text ps ++ post) = (rev (flat_map pair_text ps) ++ c, post) :: l.
Proof.
  intros N F E. destruct ps as [|p ps]; [congruence|]. inversion F as [|? ? P F']; subst. cbn [flat_map]. rewrite <- app_assoc. destruct (first_pair p c (flat_map pair_text ps ++ post) P (pairs_stop ps post F' E)) as (l1 & E1). unfold rx_rep1. cbn [snd].
  set (n := length _). destruct (first_rep ps n (rev (pair_text p) ++ c) post) as (l2 & E2); [unfold n; rewrite !app_length; pose proof (pairs_length ps F'); lia|exact F'|exact E|].
  destruct (first_seq _ _ _ _ _ _ _ E1 E2) as (l3 & E3). exists l3. rewrite E3, rev_app_distr, <- app_assoc. reflexivity.
Qed.
Lemma spells_stop w u r : lower_word w -> Forall (fun c => ~ In (nat_of_ascii c) [41; 42; 43; 44; 45; 64; 9; 10; 11; 12; 13; 32]%nat) w -> w <> [] -> spells w u -> stops is_space (u ++ r).
Proof.
  intros L F N S. destruct S as [|k x w u Hx S]; [congruence|]. cbn. inversion F as [|? ? Fk _]; subst. inversion L; subst. cbn in Fk. unfold is_space. rewrite code_nat_of. destruct Hx as [->|Hx]; lia.
Qed.
Ltac nosp := repeat (constructor; [vm_compute; intuition discriminate|]); constructor.
Lemma first_awr title ps c post : awr_title title -> ps <> [] -> Forall pair_ok ps -> ends_pairs post ->
  exists l, rx_awr (c, (title ++ flat_map pair_text ps) ++ post) = (rev (title ++ flat_map pair_text ps) ++ c, post) :: l.
Proof.
  intros (a & g1 & w & g2 & r & -> & Sa & G1 & Sw & G2 & Sr) N F E. apply gap_all in G1 as [N1 W1], G2 as [N2 W2]. change (txt "atomic") with kw_atomic in Sa. change (txt "weight") with kw_weight in Sw. change (txt "ratios") with kw_ratios in Sr.
  set (ps' := flat_map pair_text ps) in *. replace (((a ++ g1 ++ w ++ g2 ++ r) ++ ps') ++ post) with (a ++ g1 ++ w ++ g2 ++ r ++ ps' ++ post) by (rewrite <- !app_assoc; reflexivity).
  pose proof (first_ci kw_atomic a c (g1 ++ w ++ g2 ++ r ++ ps' ++ post) low_atomic Sa) as E1.
  destruct (first_plus is_space g1 (rev a ++ c) (w ++ g2 ++ r ++ ps' ++ post) N1 W1) as (l2 & E2); [apply (spells_stop kw_weight); [apply low_weight|nosp|discriminate|exact Sw]|].
  pose proof (first_ci kw_weight w (rev g1 ++ rev a ++ c) (g2 ++ r ++ ps' ++ post) low_weight Sw) as E3.
  destruct (first_plus is_space g2 (rev w ++ rev g1 ++ rev a ++ c) (r ++ ps' ++ post) N2 W2) as (l4 & E4); [apply (spells_stop kw_ratios); [apply low_ratios|nosp|discriminate|exact Sr]|].
  pose proof (first_ci kw_ratios r (rev g2 ++ rev w ++ rev g1 ++ rev a ++ c) (ps' ++ post) low_ratios Sr) as E5.
  destruct (first_rep1 ps (rev r ++ rev g2 ++ rev w ++ rev g1 ++ rev a ++ c) post N F E) as (l6 & E6).
  destruct (first_seq _ _ _ _ _ _ _ E5 E6) as (l7 & E7). destruct (first_seq _ _ _ _ _ _ _ E4 E7) as (l8 & E8). destruct (first_seq _ _ _ _ _ _ _ E3 E8) as (l9 & E9). destruct (first_seq _ _ _ _ _ _ _ E2 E9) as (l10 & E10). destruct (first_seq _ _ _ _ _ _ _ E1 E10) as (l11 & E11).
  exists l11. unfold rx_awr. rewrite E11. fold ps'. rewrite !rev_app_distr, <- !app_assoc. reflexivity.
Qed.
