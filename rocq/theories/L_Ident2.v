(** * Isotope and nuclide strings, ZAID decoding *)
From Verif Require Import Base L_Search M_Grid M_Ident L_Ident.
From Coq Require Import String Ascii List. Import ListNotations.
From Coq Require Import ZifyBool ZifyNat.
Local Open Scope list_scope.
Local Open Scope Z_scope.
Local Open Scope bool_scope.

(** ** decimal numbers *)
Lemma code_digit d : 0 <= d < 10 -> code (digit d) = 48 + d.
Proof. intros H. assert (C : d = 0 \/ d = 1 \/ d = 2 \/ d = 3 \/ d = 4 \/ d = 5 \/ d = 6 \/ d = 7 \/ d = 8 \/ d = 9) by lia. repeat destruct C as [->|C]; try subst d; reflexivity. Qed.
Definition push (v : Z) (c : ascii) : Z := 10 * v + (code c - 48).
Lemma to_string_value fuel : forall n acc, 0 <= n < Z.of_nat fuel -> fold_left push (to_string_aux fuel n acc) 0 = fold_left push acc n.
Proof.
  induction fuel as [|f IH]; intros n acc H; [lia|]. cbn [to_string_aux]. destruct (n <? 10) eqn:Q.
  - cbn [fold_left]. unfold push at 2. rewrite code_digit by lia. f_equal. lia.
  - rewrite IH by lia. cbn [fold_left]. unfold push at 2. rewrite code_digit by lia. f_equal. lia.
Qed.
Lemma stoul_to_string n : 0 <= n -> stoul (to_string n) = n.
Proof. intros H. unfold stoul, to_string. apply (to_string_value (S (Z.to_nat n)) n []). lia. Qed.
Lemma to_string_digits fuel : forall n acc, 0 <= n -> all is_digit acc -> all is_digit (to_string_aux fuel n acc).
Proof.
  induction fuel as [|f IH]; intros n acc H A; cbn [to_string_aux]; [exact A|].
  assert (D : forall d, 0 <= d < 10 -> is_digit (digit d) = true) by (intros d Hd; unfold is_digit; rewrite code_digit by lia; lia).
  destruct (n <? 10) eqn:Q; [apply all_cons; split; [apply D; lia|exact A]|]. apply IH; [lia|]. apply all_cons. split; [apply D; lia|exact A].
Qed.
Lemma to_string_length n : 0 <= n < 1000 -> (1 <= length (to_string n) <= 3)%nat.
Proof.
  intros H. assert (A : forall f m acc, length (to_string_aux f m acc) = (length acc + length (to_string_aux f m []))%nat).
  { induction f as [|f IH]; intros m acc; cbn [to_string_aux]; [cbn; lia|]. destruct (m <? 10); [cbn; lia|]. rewrite IH, (IH _ [_]). cbn. lia. }
  assert (B : forall f m, 0 <= m < 10 -> length (to_string_aux (S f) m []) = 1%nat) by (intros f m Hm; cbn [to_string_aux]; destruct (m <? 10) eqn:Q; [reflexivity|lia]).
  assert (C : forall f m, 10 <= m < 100 -> length (to_string_aux (S (S f)) m []) = 2%nat) by (intros f m Hm; cbn [to_string_aux]; destruct (m <? 10) eqn:Q; [lia|]; destruct (m / 10 <? 10) eqn:Q2; [reflexivity|lia]).
  assert (D : forall f m, 100 <= m < 1000 -> length (to_string_aux (S (S (S f))) m []) = 3%nat) by (intros f m Hm; cbn [to_string_aux]; destruct (m <? 10) eqn:Q; [lia|]; destruct (m / 10 <? 10) eqn:Q2; [lia|]; destruct (m / 10 / 10 <? 10) eqn:Q3; [reflexivity|lia]).
  unfold to_string. destruct (Z_lt_dec n 10); [rewrite B; lia|]. destruct (Z_lt_dec n 100).
  - replace (S (Z.to_nat n)) with (S (S (Z.to_nat n - 1))) by lia. rewrite C; lia.
  - replace (S (Z.to_nat n)) with (S (S (S (Z.to_nat n - 2)))) by lia. rewrite D; lia.
Qed.
Lemma stoul_nonneg w : all is_digit w -> 0 <= stoul w.
Proof.
  unfold stoul. assert (G : forall w v, 0 <= v -> all is_digit w -> 0 <= fold_left push w v); [|intros H; apply (G w 0); [lia|exact H]].
  induction w0 as [|x w0 IH]; intros v Hv A; cbn [fold_left]; [exact Hv|]. apply all_cons in A as [P A]. apply IH; [|exact A]. unfold push. unfold is_digit in P. lia.
Qed.

(** ** isotope symbols *)
Definition mass_like (d : str) : Prop := all is_digit d /\ (1 <= length d <= 3)%nat.
Lemma in_mass c r c' r' : In (c', r') (rx_mass (c, r)) <-> exists w, mass_like w /\ r = w ++ r' /\ c' = rev w ++ c.
Proof.
  unfold rx_mass, rx_from1. rewrite L_Ident.in_seq. split.
  - intros ([c1 r1] & H1 & H2). apply in_chr in H1 as (U & P & -> & ->). apply in_upto in H2 as (l & L & W & -> & ->). exists (U :: l). split; [split; [apply all_cons; auto|cbn; lia]|]. split; [reflexivity|]. cbn. rewrite <- app_assoc. reflexivity.
  - intros (w & (W & L) & -> & ->). destruct w as [|U l]; [cbn in L; lia|]. apply all_cons in W as [P W]. exists (U :: c, l ++ r'). split; [apply in_chr; exists U; auto|]. apply in_upto. exists l. split; [cbn in L; lia|]. split; [exact W|]. split; [reflexivity|]. cbn. rewrite <- app_assoc. reflexivity.
Qed.
Lemma in_iso c r c' r' : In (c', r') (rx_iso (c, r)) <-> exists w d, sym_like w /\ mass_like d /\ r = w ++ d ++ r' /\ c' = rev (w ++ d) ++ c.
Proof.
  unfold rx_iso. rewrite L_Ident.in_seq. split.
  - intros ([c1 r1] & H1 & H2). apply in_chr in H1 as (U & P & -> & ->). apply L_Ident.in_seq in H2 as ([c2 r2] & H2 & H3). apply in_upto in H2 as (l & L & W & -> & ->). apply in_mass in H3 as (d & D & -> & ->).
    exists (U :: l), d. split; [exists U, l; auto|]. split; [exact D|]. split; [reflexivity|]. rewrite rev_app_distr. cbn. rewrite <- !app_assoc. reflexivity.
  - intros (w & d & (U & l & -> & P & W & L) & D & -> & ->). exists (U :: c, l ++ d ++ r'). split; [apply in_chr; exists U; auto|]. apply L_Ident.in_seq. exists (rev l ++ U :: c, d ++ r'). split; [apply in_upto; exists l; auto|].
    apply in_mass. exists d. split; [exact D|]. split; [reflexivity|]. rewrite rev_app_distr. cbn. rewrite <- !app_assoc. reflexivity.
Qed.
Lemma match_iso s : regex_match rx_is_iso s = true <-> exists w1 w d w2, s = w1 ++ w ++ d ++ w2 /\ all is_space w1 /\ sym_like w /\ mass_like d /\ all is_space w2.
Proof.
  rewrite match_iff. unfold rx_is_iso. split.
  - intros (c & H). apply L_Ident.in_seq in H as ([c1 r1] & H1 & H). apply L_Ident.in_seq in H as ([c2 r2] & H2 & H). apply in_lead in H1 as (w1 & W1 & -> & ->). apply in_iso in H2 as (w & d & W & D & -> & ->). apply in_trail in H as (w2 & W2 & -> & ->).
    exists w1, w, d, w2. rewrite app_nil_r. auto.
  - intros (w1 & w & d & w2 & -> & W1 & W & D & W2). eexists. apply L_Ident.in_seq. exists (rev w1 ++ [], w ++ d ++ w2). split; [apply in_lead; eauto|]. apply L_Ident.in_seq. exists (rev (w ++ d) ++ rev w1 ++ [], w2). split; [apply in_iso; exists w, d; auto|].
    apply in_trail. exists w2. rewrite app_nil_r. auto.
Qed.
Lemma digit_stop_lower d r : mass_like d -> stops is_lower (d ++ r).
Proof. intros (D & L). destruct d as [|x d]; [cbn in L; lia|]. apply all_cons in D as [P _]. cbn. apply (classes x) in P. tauto. Qed.
Lemma sym_no_digit w : sym_like w -> all (fun c => negb (is_digit c)) w.
Proof. intros (U & l & -> & HU & HL & _) c [<-|I]; [apply (classes U) in HU; destruct HU as (_ & _ & _ & ->); reflexivity|]. specialize (HL c I). apply (classes c) in HL. destruct HL as (_ & _ & _ & ->). reflexivity. Qed.
Lemma space_no_digit w : all is_space w -> all (fun c => negb (is_digit c)) w.
Proof. intros W c I. specialize (W c I). apply (classes c) in W. destruct W as (_ & _ & -> & _). reflexivity. Qed.
Lemma first_mass d c r : mass_like d -> stops is_digit r -> exists k, rx_mass (c, d ++ r) = (rev d ++ c, r) :: k.
Proof.
  intros (D & L) S. destruct d as [|x d]; [cbn in L; lia|]. apply all_cons in D as [P D]. destruct (first_upto is_digit 2 d (x :: c) r D ltac:(right; split; [cbn in L; lia|exact S])) as (k & E).
  destruct (first_seq (rx_chr is_digit) (rx_upto 2 is_digit) (c, x :: d ++ r) (x :: c, d ++ r) [] _ k (first_chr _ _ _ _ P) E) as (k' & E'). exists k'. cbn [app rev]. rewrite <- app_assoc. exact E'.
Qed.
Lemma search_mass w1 w d r : all is_space w1 -> sym_like w -> mass_like d -> stops is_digit r -> regex_search rx_mass (w1 ++ w ++ d ++ r) = d.
Proof.
  intros W1 W D S. unfold regex_search. rewrite (search_skip rx_mass _ (skip_first _ _) w1 [] _ (space_no_digit _ W1)), (search_skip rx_mass _ (skip_first _ _) w _ _ (sym_no_digit _ W)).
  destruct (first_mass d (rev w ++ rev w1 ++ []) r D S) as (k & E). exact (search_here _ _ _ _ _ E).
Qed.
Lemma element_symbol_only w Z0 : sym_like w -> element_of_string w = Ok Z0 -> 1 <= Z0 <= 118 /\ w = element_symbol Z0.
Proof.
  intros W H. destruct (element_of_string_inv w Z0 H) as (R & w1 & w2 & W1 & W2 & E). split; [exact R|]. destruct (entry_like Z0 R) as (S & N & L).
  assert (V : visible w = w) by (apply visible_all, sym_visible, W). destruct E as [E|E]; rewrite E in V; rewrite visible_mid in V; try assumption; try (apply sym_visible, S); try (apply name_visible, N); rewrite <- E in V.
  - symmetry. exact V.
  - exfalso. rewrite V in L. destruct W as (U & l & -> & _ & _ & Ll). cbn in L. lia.
Qed.
Lemma space_stop_digit w : all is_space w -> stops is_digit w.
Proof. intros W. apply space_stops; [exact W|]. intros c H. apply (classes c) in H. tauto. Qed.
Lemma element_of_own_symbol Z0 : 1 <= Z0 <= 118 -> element_of_string (element_symbol Z0) = Ok Z0.
Proof. intros H. pose proof (element_of_symbol [] [] Z0 H (all_nil _) (all_nil _)) as E. cbn [app] in E. rewrite app_nil_r in E. exact E. Qed.
Lemma isotope_of_string_iff s Z0 A : isotope_of_string s = Ok (mkIso Z0 A) <->
  1 <= Z0 <= 118 /\ Z0 <= A < 300 /\ exists w1 d w2, s = w1 ++ element_symbol Z0 ++ d ++ w2 /\ all is_space w1 /\ all is_space w2 /\ mass_like d /\ stoul d = A.
Proof.
  unfold isotope_of_string. split.
  - destruct (regex_match rx_is_iso s) eqn:M; [|discriminate]. apply match_iso in M as (w1 & w & d & w2 & -> & W1 & W & D & W2).
    rewrite (search_element w1 w (d ++ w2) W1 W (digit_stop_lower d w2 D)), (search_mass w1 w d w2 W1 W D (space_stop_digit _ W2)). intros H. apply bind_ok in H as (e & He & H).
    destruct (element_symbol_only w e W He) as (R & ->). unfold check_isotope in H. destruct (stoul d <? e) eqn:Q1; [discriminate|]. destruct (300 <=? stoul d) eqn:Q2; [discriminate|]. injection H as <- <-.
    split; [exact R|]. split; [lia|]. exists w1, d, w2. auto.
  - intros (R & HA & w1 & d & w2 & -> & W1 & W2 & D & <-). destruct (entry_like Z0 R) as (S & _). rewrite (proj2 (match_iso _)) by (exists w1, (element_symbol Z0), d, w2; auto).
    rewrite (search_element w1 _ (d ++ w2) W1 S (digit_stop_lower d w2 D)), (search_mass w1 _ d w2 W1 S D (space_stop_digit _ W2)), (element_of_own_symbol Z0 R). cbn [bind]. unfold check_isotope.
    destruct (stoul d <? Z0) eqn:Q1; [lia|]. destruct (300 <=? stoul d) eqn:Q2; [lia|]. reflexivity.
Qed.
Lemma isotope_of_string_or s : isotope_of_string s = Throw \/ exists i, isotope_of_string s = Ok i.
Proof.
  unfold isotope_of_string. destruct (regex_match rx_is_iso s); [|auto]. destruct (element_of_string_or (regex_search rx_element s)) as [->|(e & ->)]; [auto|]. cbn [bind]. unfold check_isotope. destruct (_ <? _); [auto|]. destruct (300 <=? _); eauto.
Qed.
Lemma to_string_mass A : 0 <= A < 1000 -> mass_like (to_string A).
Proof. intros H. split; [apply to_string_digits; [lia|apply all_nil]|apply to_string_length, H]. Qed.
Lemma isotope_roundtrip Z0 A : 1 <= Z0 <= 118 -> Z0 <= A < 300 -> isotope_of_string (isotope_symbol (mkIso Z0 A)) = Ok (mkIso Z0 A).
Proof.
  intros R HA. apply isotope_of_string_iff. split; [exact R|]. split; [exact HA|]. exists [], (to_string A), []. unfold isotope_symbol. cbn [is_Z is_A app]. rewrite app_nil_r. split; [reflexivity|].
  split; [apply all_nil|]. split; [apply all_nil|]. split; [apply to_string_mass; lia|apply stoul_to_string; lia].
Qed.

(** ** nuclide symbols *)
Definition isomer_like (m : str) : Prop := m = [] \/ exists x y, m = [x; y] /\ is_m x = true /\ is_012 y = true.
Lemma in_isomer c r c' r' : In (c', r') (rx_opt rx_isomer (c, r)) <-> exists m, isomer_like m /\ r = m ++ r' /\ c' = rev m ++ c.
Proof.
  unfold rx_isomer. rewrite in_opt, L_Ident.in_seq. split.
  - intros [([c1 r1] & H1 & H2)|H].
    + apply in_chr in H1 as (x & P & -> & ->). apply in_chr in H2 as (y & Q & -> & ->). exists [x; y]. split; [right; exists x, y; auto|]. auto.
    + injection H as -> ->. exists []. split; [left; reflexivity|auto].
  - intros (m & [->|(x & y & -> & P & Q)] & -> & ->); [right; reflexivity|]. left. exists (x :: c, y :: r'). split; apply in_chr; [exists x|exists y]; auto.
Qed.
Lemma match_nuc s : regex_match rx_is_nuc s = true <-> exists w1 w d m w2, s = w1 ++ (w ++ d) ++ m ++ w2 /\ all is_space w1 /\ sym_like w /\ mass_like d /\ isomer_like m /\ all is_space w2.
Proof.
  rewrite match_iff. unfold rx_is_nuc. split.
  - intros (c & H). apply L_Ident.in_seq in H as ([c1 r1] & H1 & H). apply L_Ident.in_seq in H as ([c2 r2] & H2 & H). apply L_Ident.in_seq in H as ([c3 r3] & H3 & H). apply in_lead in H1 as (w1 & W1 & -> & ->). apply in_iso in H2 as (w & d & W & D & -> & ->).
    apply in_isomer in H3 as (m & M & -> & ->). apply in_trail in H as (w2 & W2 & -> & ->). exists w1, w, d, m, w2. rewrite app_nil_r, <- app_assoc. auto 6.
  - intros (w1 & w & d & m & w2 & -> & W1 & W & D & M & W2). eexists. apply L_Ident.in_seq. exists (rev w1 ++ [], (w ++ d) ++ m ++ w2). split; [apply in_lead; eauto|]. apply L_Ident.in_seq. exists (rev (w ++ d) ++ rev w1 ++ [], m ++ w2). split; [apply in_iso; exists w, d; rewrite <- app_assoc; auto|].
    apply L_Ident.in_seq. exists (rev m ++ rev (w ++ d) ++ rev w1 ++ [], w2). split; [apply in_isomer; eauto|]. apply in_trail. exists w2. rewrite app_nil_r. auto.
Qed.
Lemma first_iso w d c r : sym_like w -> mass_like d -> stops is_digit r -> exists k, rx_iso (c, (w ++ d) ++ r) = (rev (w ++ d) ++ c, r) :: k.
Proof.
  intros (U & l & -> & HU & HL & L) D S. destruct (first_mass d (rev l ++ U :: c) r D S) as (k & E).
  destruct (first_upto is_lower 1 l (U :: c) (d ++ r) HL ltac:(right; split; [exact L|apply digit_stop_lower, D])) as (k1 & E1).
  destruct (first_seq (rx_upto 1 is_lower) rx_mass (U :: c, l ++ d ++ r) _ k1 _ k E1 E) as (k2 & E2).
  destruct (first_seq (rx_chr is_upper) (rx_seq (rx_upto 1 is_lower) rx_mass) (c, U :: l ++ d ++ r) (U :: c, l ++ d ++ r) [] _ k2 (first_chr _ _ _ _ HU) E2) as (k3 & E3).
  exists k3. rewrite <- app_assoc. cbn [app]. unfold rx_iso. fold rx_mass. rewrite E3. f_equal. f_equal. cbn [rev]. rewrite rev_app_distr, <- !app_assoc. reflexivity.
Qed.
Lemma isomer_stop_digit m w2 : isomer_like m -> all is_space w2 -> stops is_digit (m ++ w2).
Proof. intros [->|(x & y & -> & P & _)] W; [apply space_stop_digit, W|]. cbn. unfold is_m in P. unfold is_digit. lia. Qed.
Lemma search_iso w1 w d r : all is_space w1 -> sym_like w -> mass_like d -> stops is_digit r -> regex_search rx_iso (w1 ++ (w ++ d) ++ r) = w ++ d.
Proof.
  intros W1 W D S. unfold regex_search. rewrite (search_skip rx_iso _ (skip_first _ _) w1 [] _ (space_not_upper _ W1)). destruct (first_iso w d (rev w1 ++ []) r W D S) as (k & E). exact (search_here _ _ _ _ _ E).
Qed.
Lemma remove_copy e p : skips e p -> forall w c r f, all p w -> (length w <= f)%nat -> remove_all f e c (w ++ r) = w ++ remove_all (f - length w) e (rev w ++ c) r.
Proof.
  intros S. induction w as [|x w IH]; intros c r f W L; [cbn; rewrite Nat.sub_0_r; reflexivity|]. apply all_cons in W as [P W]. destruct f as [|f]; [cbn in L; lia|]. cbn [app remove_all]. rewrite (S c x _ P). cbn in L.
  rewrite IH by (try exact W; lia). cbn [length Nat.sub rev]. rewrite <- app_assoc. reflexivity.
Qed.
Lemma isomer_not_upper m w2 : isomer_like m -> all is_space w2 -> all (fun c => negb (is_upper c)) (m ++ w2).
Proof.
  intros M W. apply all_app. split; [|apply space_not_upper, W]. destruct M as [->|(x & y & -> & P & Q)]; [apply all_nil|]. apply all_cons. unfold is_m in P. unfold is_012 in Q. unfold is_upper. split; [lia|]. apply all_cons. split; [lia|apply all_nil].
Qed.
Lemma remove_iso w1 w d m w2 : all is_space w1 -> sym_like w -> mass_like d -> isomer_like m -> all is_space w2 -> regex_remove rx_iso (w1 ++ (w ++ d) ++ m ++ w2) = w1 ++ m ++ w2.
Proof.
  intros W1 W D M W2. unfold regex_remove. set (F := S _). assert (HF : (length w1 + length (w ++ d) + length (m ++ w2) < F)%nat) by (unfold F; rewrite !app_length; lia).
  rewrite (remove_copy rx_iso _ (skip_first _ _) w1 [] _ F (space_not_upper _ W1)) by lia. f_equal. destruct (F - length w1)%nat as [|f] eqn:Ef; [lia|].
  destruct (first_iso w d (rev w1 ++ []) (m ++ w2) W D (isomer_stop_digit m w2 M W2)) as (k & E). cbn [remove_all]. rewrite E. cbn [fst snd].
  pose proof (remove_copy rx_iso _ (skip_first _ _) (m ++ w2) (rev (w ++ d) ++ rev w1 ++ []) [] f (isomer_not_upper m w2 M W2)) as G. rewrite (app_nil_r (m ++ w2)) in G. rewrite G.
  - set (g := (f - length (m ++ w2))%nat). destruct g; cbn; rewrite ?app_nil_r; reflexivity.
  - assert (1 <= length (w ++ d))%nat by (destruct D as (_ & D); rewrite app_length; lia). lia.
Qed.
Lemma space_not_m w : all is_space w -> all (fun c => negb (is_m c)) w.
Proof. intros W c I. specialize (W c I). apply (classes c) in W. destruct W as (_ & _ & _ & _ & ->). reflexivity. Qed.
Lemma search_isomer w1 m w2 : all is_space w1 -> isomer_like m -> all is_space w2 -> regex_search rx_isomer (w1 ++ m ++ w2) = m.
Proof.
  intros W1 M W2. unfold regex_search. rewrite (search_skip rx_isomer _ (skip_first _ _) w1 [] _ (space_not_m _ W1)). destruct M as [->|(x & y & -> & P & Q)].
  - cbn [app]. apply (search_none rx_isomer _ (skip_first _ _)); [reflexivity|apply space_not_m, W2].
  - apply search_here with (l := []). unfold rx_isomer, rx_seq. cbn [app]. rewrite (first_chr _ _ _ _ P). cbn [flat_map]. rewrite (first_chr _ _ _ _ Q). reflexivity.
Qed.
(** the level a suffix denotes *)
Definition level_of (m : str) (level : Z) : Prop := m = [] /\ level = 0 \/ m = ["m"%char; "0"%char] /\ level = 0 \/ m = ["m"%char; "1"%char] /\ level = 1 \/ m = ["m"%char; "2"%char] /\ level = 2.
Lemma code_inj a b : code a = code b -> a = b.
Proof. unfold code. intros H. apply N2Z.inj in H. rewrite <- (ascii_N_embedding a), <- (ascii_N_embedding b), H. reflexivity. Qed.
Lemma isomer_level m : isomer_like m -> exists level, level_of m level.
Proof.
  intros [->|(x & y & -> & P & Q)]; [exists 0; left; auto|]. unfold is_m in P. unfold is_012 in Q. assert (x = "m"%char) as -> by (apply code_inj; change (code "m") with 109; lia).
  assert (C : code y = 48 \/ code y = 49 \/ code y = 50) by lia. destruct C as [C|[C|C]].
  - exists 0. right; left. assert (y = "0"%char) as -> by (apply code_inj; exact C). auto.
  - exists 1. right; right; left. assert (y = "1"%char) as -> by (apply code_inj; exact C). auto.
  - exists 2. right; right; right. assert (y = "2"%char) as -> by (apply code_inj; exact C). auto.
Qed.
Lemma level_isomer m level : level_of m level -> isomer_like m /\ (match m with [] => 0 | _ :: d => stoul d end) = level.
Proof.
  intros [[-> ->]|[[-> ->]|[[-> ->]|[-> ->]]]]; (split; [|reflexivity]); [left; reflexivity|right; eexists _, _; split; [reflexivity|split; reflexivity]..].
Qed.
Lemma iso_mid w d Z0 A : sym_like w -> mass_like d -> isotope_of_string (w ++ d) = Ok (mkIso Z0 A) -> 1 <= Z0 <= 118 /\ Z0 <= A < 300 /\ w = element_symbol Z0 /\ stoul d = A.
Proof.
  intros W D. unfold isotope_of_string. rewrite (proj2 (match_iso (w ++ d))) by (exists [], w, d, []; rewrite app_nil_r; repeat split; auto using all_nil; apply D).
  pose proof (search_element [] w (d ++ []) (all_nil _) W (digit_stop_lower d [] D)) as S1. pose proof (search_mass [] w d [] (all_nil _) W D I) as S2. cbn [app] in S1, S2. rewrite app_nil_r in S1, S2. rewrite S1, S2.
  intros H. apply bind_ok in H as (e & He & H). destruct (element_symbol_only w e W He) as (R & ->). unfold check_isotope in H. destruct (stoul d <? e) eqn:Q1; [discriminate|]. destruct (300 <=? stoul d) eqn:Q2; [discriminate|]. injection H as <- <-. repeat split; auto; lia.
Qed.
Lemma nuclide_of_string_iff s Z0 A level : nuclide_of_string s = Ok (mkNuc (mkIso Z0 A) level) <->
  1 <= Z0 <= 118 /\ Z0 <= A < 300 /\ exists w1 d m w2, s = w1 ++ element_symbol Z0 ++ d ++ m ++ w2 /\ all is_space w1 /\ all is_space w2 /\ mass_like d /\ stoul d = A /\ level_of m level.
Proof.
  unfold nuclide_of_string. split.
  - destruct (regex_match rx_is_nuc s) eqn:Q; [|discriminate]. apply match_nuc in Q as (w1 & w & d & m & w2 & -> & W1 & W & D & M & W2).
    rewrite (search_iso w1 w d (m ++ w2) W1 W D (isomer_stop_digit m w2 M W2)), (remove_iso w1 w d m w2 W1 W D M W2), (search_isomer w1 m w2 W1 M W2). intros H. apply bind_ok in H as ([Z1 A1] & Hi & H).
    apply iso_mid in Hi as (R & HA & -> & HS); try assumption. destruct (isomer_level m M) as (lv & Lv). destruct (level_isomer m lv Lv) as (_ & E).
    assert (E' : Ok (mkNuc (mkIso Z1 A1) lv) = Ok (mkNuc (mkIso Z0 A) level)) by (rewrite <- H, <- E; destruct m; reflexivity). injection E' as <- <- <-. split; [exact R|]. split; [exact HA|]. exists w1, d, m, w2. rewrite <- app_assoc. auto 8.
  - intros (R & HA & w1 & d & m & w2 & -> & W1 & W2 & D & <- & Lv). destruct (entry_like Z0 R) as (S & _). destruct (level_isomer m level Lv) as (M & E). rewrite (app_assoc (element_symbol Z0)).
    rewrite (proj2 (match_nuc _)) by (exists w1, (element_symbol Z0), d, m, w2; auto 8).
    rewrite (search_iso w1 _ d (m ++ w2) W1 S D (isomer_stop_digit m w2 M W2)), (remove_iso w1 _ d m w2 W1 S D M W2), (search_isomer w1 m w2 W1 M W2).
    rewrite (proj2 (isotope_of_string_iff (element_symbol Z0 ++ d) Z0 (stoul d))).
    + cbn [bind]. destruct m; rewrite <- E; reflexivity.
    + split; [exact R|]. split; [exact HA|]. exists [], d, []. cbn [app]. rewrite app_nil_r. repeat split; auto using all_nil; apply D.
Qed.
Lemma nuclide_of_string_or s : nuclide_of_string s = Throw \/ exists n, nuclide_of_string s = Ok n.
Proof.
  unfold nuclide_of_string. destruct (regex_match rx_is_nuc s); [|auto]. destruct (isotope_of_string_or (regex_search rx_iso s)) as [->|(e & ->)]; [auto|]. cbn [bind]. destruct (regex_search rx_isomer _); eauto.
Qed.
Lemma nuclide_symbol_roundtrip Z0 A level : 1 <= Z0 <= 118 -> Z0 <= A < 300 -> 0 <= level <= 2 -> nuclide_of_string (nuclide_symbol (mkNuc (mkIso Z0 A) level)) = Ok (mkNuc (mkIso Z0 A) level).
Proof.
  intros R HA HL. apply nuclide_of_string_iff. split; [exact R|]. split; [exact HA|]. exists [], (to_string A), (if 0 <? level then "m"%char :: to_string level else []), []. unfold nuclide_symbol, isotope_symbol. cbn [nu_iso nu_level is_Z is_A app]. rewrite app_nil_r, <- app_assoc. split; [reflexivity|].
  split; [apply all_nil|]. split; [apply all_nil|]. split; [apply to_string_mass; lia|]. split; [apply stoul_to_string; lia|]. assert (C : level = 0 \/ level = 1 \/ level = 2) by lia. destruct C as [->|[->| ->]]; cbn; unfold level_of; auto.
Qed.

(** ** ZAID decoding *)
(** the loop subtracts 100 until the mass number is at most max(largest, 100) *)
Lemma decode_spec largest : forall f A level, 0 <= A <= 100 * Z.of_nat f -> 0 <= level < 256 ->
  exists k, 0 <= k /\ decode_loop f largest A level = Ok (A - 100 * k, (level + k) mod 256) /\ A - 100 * k <= Z.max largest 100 /\ (forall j, 0 <= j < k -> Z.max largest 100 < A - 100 * j) /\ 0 <= A - 100 * k.
Proof.
  induction f as [|f IH]; intros A level HA HL.
  - exists 0. cbn [decode_loop]. destruct ((largest <? A) && (100 <? A)) eqn:Q; [lia|]. rewrite Z.add_0_r, Z.mod_small by lia. split; [lia|]. split; [f_equal; f_equal; lia|]. split; [lia|]. split; [intros; lia|lia].
  - cbn [decode_loop]. destruct ((largest <? A) && (100 <? A)) eqn:Q.
    + destruct (IH (A - 100) ((level + 1) mod 256) ltac:(lia) ltac:(apply Z.mod_pos_bound; lia)) as (k & K0 & E & K1 & K2 & K3). exists (k + 1). split; [lia|]. split; [rewrite E; f_equal; f_equal; [lia|]; rewrite Z.add_mod_idemp_l by lia; f_equal; lia|].
      split; [lia|]. split; [|lia]. intros j Hj. destruct (Z.eq_dec j 0) as [->|Nj]; [lia|]. specialize (K2 (j - 1) ltac:(lia)). lia.
    + exists 0. rewrite Z.add_0_r, Z.mod_small by lia. split; [lia|]. split; [f_equal; f_equal; lia|]. split; [lia|]. split; [intros; lia|lia].
Qed.
Lemma largest_pos Z0 : 1 <= Z0 <= 118 -> Z0 <= largest_isotope Z0 < 300.
Proof.
  intros H. assert (T : forallb (fun k => (Z.of_nat k + 1 <=? i_largest (entry (Z.of_nat k + 1))) && (i_largest (entry (Z.of_nat k + 1)) <? 300)) (seq 0 118) = true) by (vm_compute; reflexivity).
  rewrite forallb_forall in T. specialize (T (Z.to_nat (Z0 - 1)) ltac:(apply List.in_seq; lia)). replace (Z.of_nat (Z.to_nat (Z0 - 1)) + 1) with Z0 in T by lia. unfold largest_isotope. lia.
Qed.
Lemma make_element_iff Z0 e : make_element Z0 = Ok e <-> e = Z0 /\ Z0 <> 0 /\ Z0 <= 118.
Proof. unfold make_element, N_ELEM. destruct ((Z0 =? 0) || (118 <? Z0)) eqn:Q; [split; [discriminate|lia]|]. split; [intros H; injection H; lia|intros (-> & _); reflexivity]. Qed.
Lemma make_isotope_iff Z0 A i : make_isotope Z0 A = Ok i <-> i = mkIso Z0 A /\ Z0 <> 0 /\ Z0 <= 118 /\ Z0 <= A < 300.
Proof.
  unfold make_isotope. split.
  - intros H. apply bind_ok in H as (e & He & H). apply make_element_iff in He as (-> & H0 & H1). unfold check_isotope in H. destruct (A <? Z0) eqn:Q1; [discriminate|]. destruct (300 <=? A) eqn:Q2; [discriminate|]. injection H as <-. repeat split; lia.
  - intros (-> & H0 & H1 & H2). rewrite (proj2 (make_element_iff Z0 Z0)) by auto. cbn [bind]. unfold check_isotope. destruct (A <? Z0) eqn:Q1; [lia|]. destruct (300 <=? A) eqn:Q2; [lia|]. reflexivity.
Qed.
Lemma make_isotope_or Z0 A : make_isotope Z0 A = Throw \/ make_isotope Z0 A = Ok (mkIso Z0 A).
Proof. unfold make_isotope, make_element, check_isotope. destruct (_ || _); [auto|]. cbn [bind]. destruct (A <? Z0); [auto|]. destruct (300 <=? A); auto. Qed.
(** all ZAIDs: an exception, or a nuclide with the mass number decoded by subtracting multiples of 100 *)
Lemma zaid_low Z0 A n : 0 <= Z0 < 256 -> 0 <= A <= 300 -> nuclide_of_zaid (mkZaid Z0 A) = Ok n <-> n = mkNuc (mkIso Z0 A) 0 /\ 1 <= Z0 <= 118 /\ Z0 <= A < 300.
Proof.
  intros HZ HA. unfold nuclide_of_zaid. cbn [za_Z za_A]. split.
  - intros H. apply bind_ok in H as (e & He & H). apply make_element_iff in He as (-> & H0 & H1). destruct (300 <? A) eqn:Q; [lia|]. cbn [bind fst snd] in H. apply bind_ok in H as (i & Hi & H). apply make_isotope_iff in Hi as (-> & _ & _ & H2). injection H as <-. split; [reflexivity|]. lia.
  - intros (-> & H1 & H2). rewrite (proj2 (make_element_iff Z0 Z0)) by lia. cbn [bind]. destruct (300 <? A) eqn:Q; [lia|]. cbn [bind fst snd]. rewrite (proj2 (make_isotope_iff Z0 A (mkIso Z0 A))) by (repeat split; lia). reflexivity.
Qed.
Lemma zaid_high Z0 A n : 0 <= Z0 < 256 -> 300 < A < 2 ^ 32 -> nuclide_of_zaid (mkZaid Z0 A) = Ok n <-> 1 <= Z0 <= 118 /\ exists k, 0 <= k /\ let L := largest_isotope Z0 in let B := wrap32 (A - 400) in
  n = mkNuc (mkIso Z0 (B - 100 * k)) ((1 + k) mod 256) /\ Z0 <= B - 100 * k <= L /\ (forall j, 0 <= j < k -> Z.max L 100 < B - 100 * j).
Proof.
  intros HZ HA. unfold nuclide_of_zaid. cbn [za_Z za_A]. assert (HB : 0 <= wrap32 (A - 400) < 2 ^ 32) by (unfold wrap32; apply Z.mod_pos_bound; lia). set (B := wrap32 (A - 400)) in *. split.
  - intros H. apply bind_ok in H as (e & He & H). apply make_element_iff in He as (-> & H0 & H1). split; [lia|]. destruct (300 <? A) eqn:Q; [|lia]. apply bind_ok in H as ([A' lv] & HAl & H). cbv zeta in HAl. fold B in HAl.
    destruct (decode_spec (largest_isotope Z0) (Z.to_nat B) B 1 ltac:(lia) ltac:(lia)) as (k & K0 & E & K1 & K2 & K3). rewrite E in HAl. cbn [bind fst] in HAl. destruct (largest_isotope Z0 <? B - 100 * k) eqn:QL; [discriminate|].
    assert (A' = B - 100 * k /\ lv = (1 + k) mod 256) as [-> ->] by (injection HAl as <- <-; auto). cbn [fst snd] in H. apply bind_ok in H as (i & Hi & H). apply make_isotope_iff in Hi as (-> & _ & _ & H2). exists k. split; [exact K0|]. cbv zeta. split; [injection H as <-; reflexivity|]. split; [lia|exact K2].
  - intros (H1 & k & K0 & K). cbv zeta in K. destruct K as (-> & K1 & K2). rewrite (proj2 (make_element_iff Z0 Z0)) by lia. cbn [bind]. destruct (300 <? A) eqn:Q; [|lia]. fold B.
    destruct (decode_spec (largest_isotope Z0) (Z.to_nat B) B 1 ltac:(lia) ltac:(lia)) as (k' & K0' & E & K1' & K2' & K3'). rewrite E. cbn [bind fst]. pose proof (largest_pos Z0 H1) as HL.
    assert (k' = k) as ->. { destruct (Z_lt_dec k k') as [C|C]; [specialize (K2' k ltac:(lia)); lia|]. destruct (Z_lt_dec k' k) as [C'|C']; [specialize (K2 k' ltac:(lia)); lia|lia]. }
    destruct (largest_isotope Z0 <? B - 100 * k) eqn:QL; [lia|]. cbn [bind fst snd]. rewrite (proj2 (make_isotope_iff Z0 (B - 100 * k) (mkIso Z0 (B - 100 * k)))) by (repeat split; lia). reflexivity.
Qed.
Lemma nuclide_of_zaid_or Z0 A : 0 <= Z0 < 256 -> 0 <= A < 2 ^ 32 -> nuclide_of_zaid (mkZaid Z0 A) = Throw \/ exists n, nuclide_of_zaid (mkZaid Z0 A) = Ok n.
Proof.
  intros HZ HA. unfold nuclide_of_zaid. cbn [za_Z za_A]. unfold make_element. destruct (_ || _); [auto|]. cbn [bind]. destruct (300 <? A) eqn:Q.
  - assert (HB : 0 <= wrap32 (A - 400) < 2 ^ 32) by (unfold wrap32; apply Z.mod_pos_bound; lia). cbv zeta. destruct (decode_spec (largest_isotope Z0) (Z.to_nat (wrap32 (A - 400))) (wrap32 (A - 400)) 1 ltac:(lia) ltac:(lia)) as (k & K0 & E & _). rewrite E. cbn [bind fst].
    destruct (largest_isotope Z0 <? _); [auto|]. cbn [bind fst snd]. destruct (make_isotope_or Z0 (wrap32 (A - 400) - 100 * k)) as [->| ->]; cbn [bind]; eauto.
  - cbn [bind fst snd]. destruct (make_isotope_or Z0 A) as [->| ->]; cbn [bind]; eauto.
Qed.
Lemma zaid_roundtrip Z0 A level : 1 <= Z0 <= 118 -> Z0 <= A < 300 -> 0 <= level <= 2 ->
  let n := mkNuc (mkIso Z0 A) level in let L := largest_isotope Z0 in
  nuclide_of_zaid (nuclide_zaid n) = Ok n <-> level = 0 \/ level = 1 /\ A <= L \/ level = 2 /\ A <= L < A + 100.
Proof.
  intros HZ HA HL n L. pose proof (largest_pos Z0 HZ) as HLp. fold L in HLp. unfold nuclide_zaid, n. cbn [nu_iso nu_level is_Z is_A]. destruct (0 <? level) eqn:Q.
  - assert (wrap32 (A + 300 + level * 100) = A + 300 + level * 100) as -> by (unfold wrap32; apply Z.mod_small; lia).
    rewrite (zaid_high Z0 (A + 300 + level * 100)) by lia. cbv zeta. assert (wrap32 (A + 300 + level * 100 - 400) = A + 100 * (level - 1)) as -> by (unfold wrap32; rewrite Z.mod_small; lia). fold L. split.
    + intros (_ & k & K0 & K & K1 & K2). assert (KA : A + 100 * (level - 1) - 100 * k = A) by (injection K; congruence). assert (k = level - 1) as -> by lia. right. assert (C : level = 1 \/ level = 2) by lia. destruct C as [->| ->]; [left; lia|right]. specialize (K2 0 ltac:(lia)). lia.
    + intros C. split; [lia|]. exists (level - 1). split; [lia|]. split; [|split; [lia|]].
      * f_equal; [f_equal; lia|]. rewrite Z.mod_small; lia.
      * intros j Hj. assert (level = 2 /\ j = 0) as [-> ->] by lia. lia.
  - assert (level = 0) as -> by lia. rewrite (zaid_low Z0 A) by lia. split; [auto|]. intros _. auto.
Qed.
