(** * Lemmas on the regular expressions and identity types *)
From Verif Require Import Base M_Grid M_Ident.
From Coq Require Import String Ascii List. Import ListNotations.
From Coq Require Import ZifyBool ZifyNat.
Local Open Scope list_scope.
Local Open Scope Z_scope.
Local Open Scope bool_scope.

Definition all (p : ascii -> bool) (w : str) : Prop := forall c, In c w -> p c = true.
Lemma all_nil p : all p []. Proof. intros c []. Qed.
Lemma all_cons p x w : all p (x :: w) <-> p x = true /\ all p w.
Proof. unfold all; cbn; split; [intros H; split; [apply H; auto|intros c Hc; apply H; auto]|intros [H1 H2] c [<-|H]; auto]. Qed.
Lemma all_app p v w : all p (v ++ w) <-> all p v /\ all p w.
Proof. induction v as [|x v IH]; cbn [app]; [split; [intros H; split; [apply all_nil|exact H]|tauto]|]. rewrite !all_cons, IH. tauto. Qed.
Lemma str_eqb_eq a : forall b, str_eqb a b = true <-> a = b.
Proof. induction a as [|x a IH]; intros [|y b]; cbn; try (split; discriminate); [split; reflexivity|]. rewrite andb_true_iff, Ascii.eqb_eq, IH. split; [intros [-> ->]; reflexivity|intros H; injection H; auto]. Qed.

(** ** which positions an expression can end at *)
Lemma in_chr p c r c' r' : In (c', r') (rx_chr p (c, r)) <-> exists x, p x = true /\ r = x :: r' /\ c' = x :: c.
Proof.
  unfold rx_chr. cbn. destruct r as [|x r]; [split; [intros []|intros (x & _ & H & _); discriminate]|]. destruct (p x) eqn:P.
  - split; [intros [H|[]]; injection H as <- <-; exists x; auto|intros (y & _ & H & ->); injection H as -> ->; left; reflexivity].
  - split; [intros []|intros (y & Q & H & _); injection H as -> _; congruence].
Qed.
Lemma in_seq a b s q : In q (rx_seq a b s) <-> exists m, In m (a s) /\ In q (b m).
Proof. unfold rx_seq. rewrite in_flat_map. reflexivity. Qed.
Lemma in_opt a s q : In q (rx_opt a s) <-> In q (a s) \/ q = s.
Proof. unfold rx_opt. rewrite in_app_iff. cbn. intuition congruence. Qed.
Lemma in_star p : forall r c c' r', In (c', r') (rx_star p (c, r)) <-> exists w, all p w /\ r = w ++ r' /\ c' = rev w ++ c.
Proof.
  unfold rx_star. cbn [fst snd]. induction r as [|x r IH]; intros c c' r'; cbn [rx_star_aux].
  - split; [intros [H|[]]; injection H as <- <-; exists []; split; [apply all_nil|auto]|]. intros (w & _ & H & ->). destruct w; [|discriminate]. cbn in *. subst. left; reflexivity.
  - destruct (p x) eqn:P.
    + rewrite in_app_iff, IH. cbn [In]. split.
      * intros [(w & W & -> & ->)|[H|[]]].
        -- exists (x :: w). split; [apply all_cons; auto|]. split; [reflexivity|]. cbn. rewrite <- app_assoc. reflexivity.
        -- injection H as <- <-. exists []. split; [apply all_nil|auto].
      * intros (w & W & H & ->). destruct w as [|y w]; [right; left; cbn in *; subst; reflexivity|]. left. cbn in H. injection H as -> ->. apply all_cons in W as [_ W].
        exists w. split; [exact W|]. split; [reflexivity|]. cbn. rewrite <- app_assoc. reflexivity.
    + cbn [In]. split.
      * intros [H|[]]. injection H as <- <-. exists []. split; [apply all_nil|auto].
      * intros (w & W & H & ->). destruct w as [|y w]; [left; cbn in *; subst; reflexivity|]. cbn in H. injection H as -> _. apply all_cons in W as [W _]. congruence.
Qed.
Lemma in_plus p c r c' r' : In (c', r') (rx_plus p (c, r)) <-> exists x w, all p (x :: w) /\ r = (x :: w) ++ r' /\ c' = rev (x :: w) ++ c.
Proof.
  unfold rx_plus. rewrite in_seq. split.
  - intros ([c1 r1] & H1 & H2). apply in_chr in H1 as (x & P & -> & ->). apply in_star in H2 as (w & W & -> & ->). exists x, w. split; [apply all_cons; auto|]. split; [reflexivity|]. cbn. rewrite <- app_assoc. reflexivity.
  - intros (x & w & W & -> & ->). apply all_cons in W as [P W]. exists (x :: c, w ++ r'). split; [apply in_chr; exists x; auto|]. apply in_star. exists w. split; [exact W|]. split; [reflexivity|]. cbn. rewrite <- app_assoc. reflexivity.
Qed.
Lemma in_upto p n : forall c r c' r', In (c', r') (rx_upto n p (c, r)) <-> exists w, (length w <= n)%nat /\ all p w /\ r = w ++ r' /\ c' = rev w ++ c.
Proof.
  induction n as [|n IH]; intros c r c' r'; cbn [rx_upto].
  - cbn [In]. split; [intros [H|[]]; injection H as <- <-; exists []; split; [cbn; lia|split; [apply all_nil|auto]]|].
    intros (w & L & _ & -> & ->). destruct w; [left; reflexivity|cbn in L; lia].
  - rewrite in_opt, in_seq. split.
    + intros [([c1 r1] & H1 & H2)|H].
      * apply in_chr in H1 as (x & P & -> & ->). apply IH in H2 as (w & L & W & -> & ->). exists (x :: w). split; [cbn; lia|]. split; [apply all_cons; auto|]. split; [reflexivity|]. cbn. rewrite <- app_assoc. reflexivity.
      * injection H as -> ->. exists []. split; [cbn; lia|]. split; [apply all_nil|auto].
    + intros (w & L & W & -> & ->). destruct w as [|x w]; [right; reflexivity|]. left. apply all_cons in W as [P W]. exists (x :: c, w ++ r'). split; [apply in_chr; exists x; auto|].
      apply IH. exists w. split; [cbn in L; lia|]. split; [exact W|]. split; [reflexivity|]. cbn. rewrite <- app_assoc. reflexivity.
Qed.
Lemma in_lead r c' r' : In (c', r') (rx_lead ([], r)) <-> exists w, all is_space w /\ r = w ++ r' /\ c' = rev w ++ [].
Proof.
  unfold rx_lead. rewrite in_opt, in_seq. split.
  - intros [(m & H1 & H2)|H].
    + cbn in H1. destruct H1 as [<-|[]]. apply in_plus in H2 as (x & w & W & -> & ->). exists (x :: w). auto.
    + injection H as -> ->. exists []. split; [apply all_nil|auto].
  - intros (w & W & -> & ->). destruct w as [|x w]; [right; reflexivity|]. left. exists ([], (x :: w) ++ r'). split; [left; reflexivity|]. apply in_plus. exists x, w. auto.
Qed.
Lemma in_trail c r c' r' : In (c', r') (rx_trail (c, r)) <-> exists w, all is_space w /\ r = w ++ r' /\ c' = rev w ++ c.
Proof.
  unfold rx_trail. rewrite in_opt. split.
  - intros [H|H]; [apply in_plus in H as (x & w & W & -> & ->); exists (x :: w); auto|]. injection H as -> ->. exists []. split; [apply all_nil|auto].
  - intros (w & W & -> & ->). destruct w as [|x w]; [right; reflexivity|]. left. apply in_plus. exists x, w. auto.
Qed.
Lemma match_iff e s : regex_match e s = true <-> exists c, In (c, []) (e ([], s)).
Proof.
  unfold regex_match. rewrite existsb_exists. split.
  - intros ([c r] & I & H). cbn in H. destruct r; [|discriminate]. eauto.
  - intros (c & I). exists (c, []). auto.
Qed.
(** symbol of an element: an upper-case letter and at most one lower-case letter *)
Definition sym_like (w : str) : Prop := exists U l, w = U :: l /\ is_upper U = true /\ all is_lower l /\ (length l <= 1)%nat.
Definition name_like (w : str) : Prop := exists U x l, w = U :: x :: l /\ is_upper U = true /\ all is_lower (x :: l).
Lemma in_element c r c' r' : In (c', r') (rx_element (c, r)) <-> exists w, sym_like w /\ r = w ++ r' /\ c' = rev w ++ c.
Proof.
  unfold rx_element. rewrite in_seq. split.
  - intros ([c1 r1] & H1 & H2). apply in_chr in H1 as (U & P & -> & ->). apply in_upto in H2 as (l & L & W & -> & ->). exists (U :: l). split; [exists U, l; auto|]. split; [reflexivity|]. cbn. rewrite <- app_assoc. reflexivity.
  - intros (w & (U & l & -> & P & W & L) & -> & ->). exists (U :: c, l ++ r'). split; [apply in_chr; exists U; auto|]. apply in_upto. exists l. split; [exact L|]. split; [exact W|]. split; [reflexivity|]. cbn. rewrite <- app_assoc. reflexivity.
Qed.
Lemma in_name c r c' r' : In (c', r') (rx_name (c, r)) <-> exists w, name_like w /\ r = w ++ r' /\ c' = rev w ++ c.
Proof.
  unfold rx_name. rewrite in_seq. split.
  - intros ([c1 r1] & H1 & H2). apply in_chr in H1 as (U & P & -> & ->). apply in_plus in H2 as (x & l & W & -> & ->). exists (U :: x :: l). split; [exists U, x, l; auto|]. split; [reflexivity|].
    change (rev (U :: x :: l)) with (rev (x :: l) ++ [U]). rewrite <- app_assoc. reflexivity.
  - intros (w & (U & x & l & -> & P & W) & -> & ->). exists (U :: c, (x :: l) ++ r'). split; [apply in_chr; exists U; auto|]. apply in_plus. exists x, l. split; [exact W|]. split; [reflexivity|].
    change (rev (U :: x :: l)) with (rev (x :: l) ++ [U]). rewrite <- app_assoc. reflexivity.
Qed.
Lemma match_element s : regex_match rx_is_element s = true <-> exists w1 w w2, s = w1 ++ w ++ w2 /\ all is_space w1 /\ sym_like w /\ all is_space w2.
Proof.
  rewrite match_iff. unfold rx_is_element. split.
  - intros (c & H). apply in_seq in H as ([c1 r1] & H1 & H). apply in_seq in H as ([c2 r2] & H2 & H). apply in_lead in H1 as (w1 & W1 & -> & ->). apply in_element in H2 as (w & W & -> & ->). apply in_trail in H as (w2 & W2 & -> & ->).
    exists w1, w, w2. rewrite app_nil_r. auto.
  - intros (w1 & w & w2 & -> & W1 & W & W2). eexists. apply in_seq. exists (rev w1 ++ [], w ++ w2). split; [apply in_lead; eauto|]. apply in_seq. exists (rev w ++ rev w1 ++ [], w2). split; [apply in_element; eauto|].
    apply in_trail. exists w2. rewrite app_nil_r. auto.
Qed.
Lemma classes c : (is_space c = true -> is_upper c = false /\ is_lower c = false /\ is_digit c = false /\ is_word c = false /\ is_m c = false) /\ (is_upper c = true -> is_word c = true /\ is_space c = false /\ is_lower c = false /\ is_digit c = false) /\
  (is_lower c = true -> is_word c = true /\ is_space c = false /\ is_upper c = false /\ is_digit c = false) /\ (is_digit c = true -> is_word c = true /\ is_space c = false /\ is_upper c = false /\ is_lower c = false /\ is_m c = false) /\
  (is_m c = true -> is_lower c = true).
Proof. unfold is_word, is_space, is_upper, is_lower, is_digit, is_m. lia. Qed.
Lemma word_bound c r : rx_wordb (c, r) = if Bool.eqb (word_at c) (word_at r) then [] else [(c, r)].
Proof. reflexivity. Qed.
Lemma word_space w : all is_space w -> word_at w = false.
Proof. destruct w as [|x w]; [reflexivity|]. intros H. apply all_cons in H as [H _]. cbn. apply (classes x) in H. tauto. Qed.
Lemma all_rev p w : all p (rev w) <-> all p w.
Proof. unfold all. split; intros H c I; apply H; rewrite <- in_rev in *; assumption. Qed.
Lemma name_ends U x l c : is_upper U = true -> all is_lower (x :: l) -> word_at (rev (U :: x :: l) ++ c) = true.
Proof.
  intros HU HL. change (rev (U :: x :: l)) with (rev (x :: l) ++ [U]). assert (A : all is_lower (rev (x :: l))) by (apply all_rev, HL).
  destruct (rev (x :: l)) as [|y t] eqn:E; [apply (f_equal (@length ascii)) in E; rewrite rev_length in E; discriminate|]. cbn. apply all_cons in A as [A _]. apply (classes y) in A. tauto.
Qed.
Lemma match_name s : regex_match rx_is_name s = true <-> exists w1 w w2, s = w1 ++ w ++ w2 /\ all is_space w1 /\ name_like w /\ all is_space w2.
Proof.
  rewrite match_iff. unfold rx_is_name. split.
  - intros (c & H). apply in_seq in H as ([c1 r1] & H1 & H). apply in_seq in H as ([c2 r2] & H2 & H). apply in_seq in H as ([c3 r3] & H3 & H). apply in_seq in H as ([c4 r4] & H4 & H).
    rewrite word_bound in H2, H4. destruct (Bool.eqb _ _) in H2; [destruct H2|]. destruct H2 as [H2|[]]. injection H2 as <- <-. destruct (Bool.eqb _ _) in H4; [destruct H4|]. destruct H4 as [H4|[]]. injection H4 as <- <-.
    apply in_lead in H1 as (w1 & W1 & -> & ->). apply in_name in H3 as (w & W & -> & ->). apply in_trail in H as (w2 & W2 & -> & ->).
    exists w1, w, w2. rewrite app_nil_r. auto.
  - intros (w1 & w & w2 & -> & W1 & W & W2). pose proof W as (U & x & l & -> & HU & HL). eexists. apply in_seq. exists (rev w1 ++ [], (U :: x :: l) ++ w2). split; [apply in_lead; eauto|].
    apply in_seq. exists (rev w1 ++ [], (U :: x :: l) ++ w2). split.
    { rewrite word_bound. rewrite app_nil_r, (word_space (rev w1)) by (apply all_rev, W1). cbn [word_at app]. rewrite (proj1 (proj1 (proj2 (classes U)) HU)). left. reflexivity. }
    apply in_seq. exists (rev (U :: x :: l) ++ rev w1 ++ [], w2). split; [apply in_name; eauto|]. apply in_seq. exists (rev (U :: x :: l) ++ rev w1 ++ [], w2). split.
    { rewrite word_bound, (name_ends U x l), (word_space w2) by assumption. left. reflexivity. }
    apply in_trail. exists w2. rewrite app_nil_r. auto.
Qed.

(** ** the preferred match *)
Lemma first_seq a b s q l q' l' : a s = q :: l -> b q = q' :: l' -> exists l'', rx_seq a b s = q' :: l''.
Proof. intros H1 H2. unfold rx_seq. rewrite H1. cbn. rewrite H2. eexists. reflexivity. Qed.
Lemma first_chr p c x r : p x = true -> rx_chr p (c, x :: r) = [(x :: c, r)].
Proof. intros H. unfold rx_chr. cbn. rewrite H. reflexivity. Qed.
Definition stops (p : ascii -> bool) (r : str) : Prop := match r with x :: _ => p x = false | [] => True end.
Lemma first_star p : forall w c r, all p w -> stops p r -> exists l, rx_star p (c, w ++ r) = (rev w ++ c, r) :: l.
Proof.
  unfold rx_star. cbn [fst snd]. induction w as [|x w IH]; intros c r W S; cbn [app].
  - cbn. destruct r as [|y r]; cbn; [eexists; reflexivity|]. cbn in S. rewrite S. eexists; reflexivity.
  - apply all_cons in W as [P W]. cbn. rewrite P. destruct (IH (x :: c) r W S) as (l & ->). cbn. rewrite <- app_assoc. eexists. reflexivity.
Qed.
Lemma first_upto p n : forall w c r, all p w -> (length w = n \/ (length w <= n)%nat /\ stops p r) -> exists l, rx_upto n p (c, w ++ r) = (rev w ++ c, r) :: l.
Proof.
  induction n as [|n IH]; intros w c r W H; cbn [rx_upto].
  - destruct w; [|cbn in H; lia]. cbn. eexists; reflexivity.
  - destruct w as [|x w]; cbn [app rev].
    + destruct H as [H|[_ H]]; [cbn in H; lia|]. unfold rx_opt, rx_seq, rx_chr. cbn. destruct r as [|y r]; cbn; [eexists; reflexivity|]. cbn in H. rewrite H. cbn. eexists; reflexivity.
    + apply all_cons in W as [P W]. assert (H0 : length w = n \/ (length w <= n)%nat /\ stops p r) by (destruct H as [H|[H1 H2]]; [left; cbn in H; lia|right; split; [cbn in H1; lia|exact H2]]). destruct (IH w (x :: c) r W H0) as (l & El).
      destruct (first_seq (rx_chr p) (rx_upto n p) (c, x :: w ++ r) (x :: c, w ++ r) [] _ l (first_chr _ _ _ _ P) El) as (l' & E'). unfold rx_opt. rewrite E'. cbn. rewrite <- app_assoc. eexists. reflexivity.
Qed.
(** a search skips what cannot start a match *)
Definition skips (e : regex) (p : ascii -> bool) : Prop := forall c x r, p x = true -> e (c, x :: r) = [].
Lemma search_skip e p : skips e p -> forall w c r, all p w -> search_from e c (w ++ r) = search_from e (rev w ++ c) r.
Proof.
  intros S. induction w as [|x w IH]; intros c r W; [reflexivity|]. apply all_cons in W as [P W]. cbn [app search_from]. rewrite (S c x _ P). rewrite IH by exact W. cbn. rewrite <- app_assoc. reflexivity.
Qed.
Lemma search_here (e : regex) (c w r : str) l : e (c, w ++ r) = (rev w ++ c, r) :: l -> search_from e c (w ++ r) = w.
Proof.
  intros H. assert (F : firstn (length (w ++ r) - length r) (w ++ r) = w).
  { rewrite app_length. replace (length w + length r - length r)%nat with (length w + 0)%nat by lia. rewrite firstn_app_2. cbn. apply app_nil_r. }
  assert (G : forall t, e (c, t) = (rev w ++ c, r) :: l -> firstn (length t - length r) t = w -> search_from e c t = w); [|apply G; assumption]. intros t H' F'. destruct t; cbn [search_from]; (match type of H' with ?x = _ => match goal with |- context [match ?y with _ => _ end] => change y with x end end); rewrite H'; exact F'.
Qed.
Lemma search_none e p : skips e p -> (forall c, e (c, []) = []) -> forall w c, all p w -> search_from e c w = [].
Proof. intros S N. induction w as [|x w IH]; intros c W; cbn [search_from]; [rewrite N; reflexivity|]. apply all_cons in W as [P W]. rewrite (S c x w P). apply IH, W. Qed.
Definition not_upper (c : ascii) : bool := negb (is_upper c).
Lemma skip_first p e : skips (rx_seq (rx_chr p) e) (fun c => negb (p c)).
Proof. intros c x r H. unfold rx_seq, rx_chr. cbn. destruct (p x); [discriminate|reflexivity]. Qed.
Lemma space_not_upper w : all is_space w -> all (fun c => negb (is_upper c)) w.
Proof. intros H c I. specialize (H c I). apply (classes c) in H. destruct H as (-> & _). reflexivity. Qed.
Lemma first_element U l c r : is_upper U = true -> all is_lower l -> (length l = 1%nat \/ (length l <= 1)%nat /\ stops is_lower r) -> exists k, rx_element (c, (U :: l) ++ r) = (rev (U :: l) ++ c, r) :: k.
Proof.
  intros HU HL S. destruct (first_upto is_lower 1 l (U :: c) r HL S) as (k & E). destruct (first_seq (rx_chr is_upper) (rx_upto 1 is_lower) (c, U :: l ++ r) (U :: c, l ++ r) [] _ k (first_chr _ _ _ _ HU) E) as (k' & E'). exists k'. cbn [app rev]. rewrite <- app_assoc. exact E'.
Qed.
Lemma search_element w1 w r : all is_space w1 -> sym_like w -> stops is_lower r -> regex_search rx_element (w1 ++ w ++ r) = w.
Proof.
  intros W1 (U & l & -> & HU & HL & L) S. unfold regex_search. rewrite (search_skip rx_element _ (skip_first _ _) w1 [] _ (space_not_upper _ W1)).
  destruct (first_element U l (rev w1 ++ []) r HU HL ltac:(auto)) as (k & E). exact (search_here _ _ _ _ _ E).
Qed.
Lemma space_stops w p : all is_space w -> (forall c, is_space c = true -> p c = false) -> stops p w.
Proof. intros W H. destruct w as [|x w]; cbn; [exact I|]. apply all_cons in W as [W _]. auto. Qed.
Lemma search_name w1 w r : all is_space w1 -> name_like w -> stops is_lower r -> regex_search rx_name (w1 ++ w ++ r) = w.
Proof.
  intros W1 (U & x & l & -> & HU & HL) S. unfold regex_search. rewrite (search_skip rx_name _ (skip_first _ _) w1 [] _ (space_not_upper _ W1)).
  pose proof HL as HL0. apply all_cons in HL as [Hx HL]. destruct (first_star is_lower l (x :: U :: rev w1 ++ []) r HL S) as (k & E).
  destruct (first_seq (rx_chr is_lower) (rx_star is_lower) (U :: rev w1 ++ [], x :: l ++ r) (x :: U :: rev w1 ++ [], l ++ r) [] _ k (first_chr _ _ _ _ Hx) E) as (k1 & E1).
  destruct (first_seq (rx_chr is_upper) (rx_plus is_lower) (rev w1 ++ [], U :: x :: l ++ r) (U :: rev w1 ++ [], x :: l ++ r) [] _ k1 (first_chr _ _ _ _ HU) E1) as (k2 & E2).
  apply search_here with (l := k2). cbn [app rev]. rewrite <- !app_assoc. exact E2.
Qed.

(** ** the element table *)
Lemma table_size : length elements_table = 118%nat. Proof. reflexivity. Qed.
Lemma entry_nth Z0 : 1 <= Z0 <= 118 -> nth_error elements_table (Z.to_nat (Z0 - 1)) = Some (entry Z0).
Proof. intros H. unfold entry. apply nth_error_nth'. rewrite table_size. lia. Qed.
Fixpoint nodupb (l : list string) : bool := match l with [] => true | x :: t => negb (existsb (String.eqb x) t) && nodupb t end.
Lemma nodupb_ok l : nodupb l = true -> NoDup l.
Proof.
  induction l as [|x l IH]; [constructor|]. cbn. rewrite andb_true_iff, negb_true_iff. intros [H1 H2]. constructor; [|auto]. intros I. assert (existsb (String.eqb x) l = true) as Q by (apply existsb_exists; exists x; rewrite String.eqb_refl; auto). congruence.
Qed.
Lemma symbols_nodup : NoDup (map i_symbol elements_table). Proof. apply nodupb_ok. vm_compute. reflexivity. Qed.
Lemma names_nodup : NoDup (map i_name elements_table). Proof. apply nodupb_ok. vm_compute. reflexivity. Qed.
Lemma las_inj a b : list_ascii_of_string a = list_ascii_of_string b -> a = b.
Proof. intros H. rewrite <- (string_of_list_ascii_of_string a), <- (string_of_list_ascii_of_string b), H. reflexivity. Qed.
Lemma find_none f s l : forall k, find_entry f s l k = None <-> forall e, In e l -> list_ascii_of_string (f e) <> s.
Proof.
  induction l as [|e l IH]; intros k; cbn; [split; [intros _ e []|auto]|]. destruct (str_eqb _ s) eqn:E.
  - apply str_eqb_eq in E. split; [discriminate|]. intros H. destruct (H e); auto.
  - rewrite IH. split; [intros H e' [<-|I]; auto|auto]. intros Q. apply str_eqb_eq in Q. congruence.
Qed.
Lemma find_some f s l : forall k j, find_entry f s l k = Some j -> k <= j < k + Z.of_nat (length l) /\ exists e, nth_error l (Z.to_nat (j - k)) = Some e /\ list_ascii_of_string (f e) = s.
Proof.
  induction l as [|e l IH]; intros k j; cbn [find_entry]; [discriminate|]. destruct (str_eqb _ s) eqn:E.
  - apply str_eqb_eq in E. intros H. injection H as <-. cbn [length]. split; [lia|]. exists e. rewrite Z.sub_diag. auto.
  - intros H. apply IH in H as (R & e' & N & Q). cbn [length]. split; [lia|]. exists e'. split; [|exact Q]. replace (Z.to_nat (j - k)) with (S (Z.to_nat (j - (k + 1)))) by lia. exact N.
Qed.
Lemma find_unique f s Z0 : NoDup (map f elements_table) -> 1 <= Z0 <= 118 -> list_ascii_of_string (f (entry Z0)) = s -> find_entry f s elements_table 0 = Some (Z0 - 1).
Proof.
  intros ND H E. pose proof (entry_nth Z0 H) as Ne. destruct (find_entry f s elements_table 0) as [j|] eqn:F.
  - apply find_some in F as (R & e & N & Q). rewrite table_size in R. f_equal. subst s. apply las_inj in Q. rewrite Z.sub_0_r in N.
    assert (Z.to_nat j = Z.to_nat (Z0 - 1)); [|lia]. apply (NoDup_nth_error (map f elements_table)) with (1 := ND); [rewrite map_length, table_size; lia|]. rewrite !nth_error_map, N, Ne. cbn [option_map]. rewrite Q. reflexivity.
  - exfalso. rewrite find_none in F. apply (F (entry Z0)); [eapply nth_error_In; eauto|exact E].
Qed.
Lemma find_element f s j : find_entry f s elements_table 0 = Some j -> 1 <= j + 1 <= 118 /\ list_ascii_of_string (f (entry (j + 1))) = s.
Proof.
  intros F. apply find_some in F as (R & e & N & Q). rewrite table_size in R. split; [lia|]. pose proof (entry_nth (j + 1) ltac:(lia)) as Ne. replace (Z.to_nat (j + 1 - 1)) with (Z.to_nat (j - 0)) in Ne by lia. rewrite N in Ne. injection Ne as <-. exact Q.
Qed.
Definition sym_likeb (w : str) : bool := match w with [U] => is_upper U | [U; l] => is_upper U && is_lower l | _ => false end.
Lemma sym_likeb_ok w : sym_likeb w = true <-> sym_like w.
Proof.
  split.
  - destruct w as [|U [|l [|]]]; cbn; try discriminate; intros H.
    + exists U, []. split; [reflexivity|]. split; [exact H|]. split; [apply all_nil|cbn; lia].
    + apply andb_true_iff in H as [H1 H2]. exists U, [l]. split; [reflexivity|]. split; [exact H1|]. split; [apply all_cons; split; [exact H2|apply all_nil]|cbn; lia].
  - intros (U & l & -> & HU & HL & L). destruct l as [|x [|]]; cbn in *; [exact HU| |lia]. apply all_cons in HL as [Hx _]. rewrite HU, Hx. reflexivity.
Qed.
Definition name_likeb (w : str) : bool := match w with U :: x :: y :: l => is_upper U && is_lower x && is_lower y && forallb is_lower l | _ => false end.
Lemma name_likeb_ok w : name_likeb w = true -> name_like w /\ (3 <= length w)%nat.
Proof.
  destruct w as [|U [|x [|y l]]]; cbn; try discriminate. rewrite !andb_true_iff. intros [[[H1 H2] H3] H4]. split; [|lia]. exists U, x, (y :: l). split; [reflexivity|]. split; [exact H1|].
  apply all_cons. split; [exact H2|]. apply all_cons. split; [exact H3|]. intros c I. rewrite forallb_forall in H4. auto.
Qed.
Lemma table_like : forallb (fun e => sym_likeb (list_ascii_of_string (i_symbol e)) && name_likeb (list_ascii_of_string (i_name e))) elements_table = true.
Proof. vm_compute. reflexivity. Qed.
Lemma entry_like Z0 : 1 <= Z0 <= 118 -> sym_like (element_symbol Z0) /\ name_like (element_name Z0) /\ (3 <= length (element_name Z0))%nat.
Proof.
  intros H. pose proof table_like as T. rewrite forallb_forall in T. specialize (T (entry Z0) (nth_error_In _ _ (entry_nth Z0 H))). apply andb_true_iff in T as [T1 T2]. apply sym_likeb_ok in T1. apply name_likeb_ok in T2. auto.
Qed.

(** ** looking an element up *)
Definition visible (s : str) : str := filter (fun c => negb (is_space c)) s.
Lemma visible_space w : all is_space w -> visible w = [].
Proof. induction w as [|x w IH]; intros H; [reflexivity|]. apply all_cons in H as [P H]. cbn. rewrite P. cbn. auto. Qed.
Lemma visible_all w : all (fun c => negb (is_space c)) w -> visible w = w.
Proof. induction w as [|x w IH]; intros H; [reflexivity|]. apply all_cons in H as [P H]. cbn. rewrite P. f_equal. auto. Qed.
Lemma visible_mid w1 w w2 : all is_space w1 -> all is_space w2 -> all (fun c => negb (is_space c)) w -> visible (w1 ++ w ++ w2) = w.
Proof. intros H1 H2 H. unfold visible. rewrite !filter_app. fold (visible w1) (visible w) (visible w2). rewrite (visible_space w1), (visible_space w2), visible_all by assumption. cbn [app]. apply app_nil_r. Qed.
Lemma sym_visible w : sym_like w -> all (fun c => negb (is_space c)) w.
Proof.
  intros (U & l & -> & HU & HL & _) c [<-|I]; [apply (classes U) in HU; destruct HU as (_ & -> & _); reflexivity|]. specialize (HL c I). apply (classes c) in HL. destruct HL as (_ & -> & _). reflexivity.
Qed.
Lemma name_visible w : name_like w -> all (fun c => negb (is_space c)) w.
Proof.
  intros (U & x & l & -> & HU & HL) c [<-|I]; [apply (classes U) in HU; destruct HU as (_ & -> & _); reflexivity|]. specialize (HL c I). apply (classes c) in HL. destruct HL as (_ & -> & _). reflexivity.
Qed.
Lemma space_stop_lower w : all is_space w -> stops is_lower w.
Proof. intros W. apply space_stops; [exact W|]. intros c H. apply (classes c) in H. tauto. Qed.
Lemma element_of_symbol w1 w2 Z0 : 1 <= Z0 <= 118 -> all is_space w1 -> all is_space w2 -> element_of_string (w1 ++ element_symbol Z0 ++ w2) = Ok Z0.
Proof.
  intros H W1 W2. destruct (entry_like Z0 H) as (S & _). unfold element_of_string. rewrite (proj2 (match_element _)) by (exists w1, (element_symbol Z0), w2; auto).
  rewrite (search_element w1 (element_symbol Z0) w2 W1 S (space_stop_lower _ W2)). rewrite (find_unique i_symbol (element_symbol Z0) Z0 symbols_nodup H eq_refl). f_equal. lia.
Qed.
Lemma element_of_name w1 w2 Z0 : 1 <= Z0 <= 118 -> all is_space w1 -> all is_space w2 -> element_of_string (w1 ++ element_name Z0 ++ w2) = Ok Z0.
Proof.
  intros H W1 W2. destruct (entry_like Z0 H) as (_ & S & L). unfold element_of_string. destruct (regex_match rx_is_element _) eqn:M.
  { exfalso. apply match_element in M as (v1 & w & v2 & E & V1 & SW & V2). apply (f_equal visible) in E. rewrite !visible_mid in E; try assumption; [|apply sym_visible, SW|apply name_visible, S].
    destruct SW as (U & l & -> & _ & _ & Ll). rewrite E in L. cbn in L. lia. }
  rewrite (proj2 (match_name _)) by (exists w1, (element_name Z0), w2; auto). rewrite (search_name w1 (element_name Z0) w2 W1 S (space_stop_lower _ W2)).
  rewrite (find_unique i_name (element_name Z0) Z0 names_nodup H eq_refl). f_equal. lia.
Qed.
Lemma element_of_string_inv s Z0 : element_of_string s = Ok Z0 -> 1 <= Z0 <= 118 /\ exists w1 w2, all is_space w1 /\ all is_space w2 /\ (s = w1 ++ element_symbol Z0 ++ w2 \/ s = w1 ++ element_name Z0 ++ w2).
Proof.
  unfold element_of_string. intros H.
  assert (Nm : (match (if regex_match rx_is_name s then find_entry i_name (regex_search rx_name s) elements_table 0 else None) with Some k => Ok (k + 1) | None => Throw end) = Ok Z0 ->
    1 <= Z0 <= 118 /\ exists w1 w2, all is_space w1 /\ all is_space w2 /\ (s = w1 ++ element_symbol Z0 ++ w2 \/ s = w1 ++ element_name Z0 ++ w2)).
  { clear H. intros H. destruct (regex_match rx_is_name s) eqn:M; [|discriminate]. apply match_name in M as (w1 & w & w2 & -> & W1 & W & W2). rewrite (search_name _ _ _ W1 W (space_stop_lower _ W2)) in H.
    destruct (find_entry _ _ _ _) as [j|] eqn:F; [|discriminate]. injection H as <-. apply find_element in F as [R <-]. split; [exact R|]. exists w1, w2. auto. }
  destruct (regex_match rx_is_element s) eqn:M; [|exact (Nm H)]. destruct (find_entry i_symbol _ _ _) as [j|] eqn:F; [|exact (Nm H)].
  apply match_element in M as (w1 & w & w2 & -> & W1 & W & W2). rewrite (search_element _ _ _ W1 W (space_stop_lower _ W2)) in F. injection H as <-. apply find_element in F as [R <-]. split; [exact R|]. exists w1, w2. auto.
Qed.
Lemma element_of_string_or s : element_of_string s = Throw \/ exists Z0, element_of_string s = Ok Z0.
Proof.
  unfold element_of_string. cbv zeta. match goal with |- (match ?x with Some _ => _ | None => _ end) = _ \/ _ => destruct x end; [right; eexists; reflexivity|left; reflexivity].
Qed.
