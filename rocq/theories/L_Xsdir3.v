(** * Lemmas for C86: the directory lines *)
From Coq Require Import String Ascii List. Import ListNotations.
From Coq Require Import Lia ZifyBool ZifyNat.
From Verif Require Import Base M_Grid L_Search M_Ident L_Ident L_Ident2 S_Ident L_Ident3 M_Library M_Xsdir S_Xsdir L_Xsdir L_Xsdir2.
Local Open Scope list_scope.
Local Open Scope Z_scope.
Local Open Scope bool_scope.

Definition gap_of (s : separator) : nat := match s with Spaces n => n | Continued n _ m => n + m end.
Definition joined_line (l : dir_line) : str :=
  match l with
  | Empty n => spaces n
  | Entry lead w more trail => spaces lead ++ w ++ flat_map (fun sw => spaces (S (gap_of (fst sw))) ++ snd sw) more ++ spaces trail
  end.
Lemma spaces_app a b : spaces a ++ spaces b = spaces (a + b).
Proof. unfold spaces. rewrite repeat_app. reflexivity. Qed.
Lemma spaces_snoc n : spaces (S n) = spaces n ++ [" "%char].
Proof. change [" "%char] with (spaces 1). rewrite spaces_app. f_equal. lia. Qed.
Lemma spaces_join n m w : spaces (S (n + m)) ++ w = spaces n ++ " "%char :: spaces m ++ w.
Proof. change (" "%char :: spaces m ++ w) with (spaces (S m) ++ w). rewrite app_assoc, spaces_app. do 2 f_equal. lia. Qed.
Lemma word_visible w : word_ok w -> visible_word w.
Proof. intros (N & W & _). split; [exact N|]. intros c Hc. destruct (is_space c) eqn:E; [|reflexivity]. elim (W c Hc). apply blank_space, E. Qed.

Notation joining := (by_ [" "%char] rx_join).
Definition fine (r : str) : Prop := forall c x, rx_join (c, x :: r) = [].
Lemma joining_none c r : rx_join (c, r) = [] -> joining (c, r) = [].
Proof. intros H. unfold by_. rewrite H. reflexivity. Qed.
Lemma fine_plus r : stops is_plus r -> fine r.
Proof. intros H c x. apply join_no_plus, H. Qed.
Lemma fine_word w r : word_ok w -> fine (w ++ r).
Proof.
  intros (N & W & P) c x. destruct w as [|y w]; [congruence|]. destruct (is_plus y) eqn:E.
  - assert (y = "+"%char) as -> by (apply code_inj; unfold is_plus in E; change (code "+"%char) with 43; lia). destruct w as [|z w]; [congruence|]. apply join_no_gap. destruct (is_space z) eqn:Ez; [|reflexivity]. elim (W z); [right; left; reflexivity|apply blank_space, Ez].
  - apply join_no_plus. exact E.
Qed.
Lemma rep_chars w r o : all (fun x => negb (is_blank x)) w -> (forall c, replaces joining c r o) -> forall c, replaces joining c (w ++ r) (w ++ o).
Proof.
  intros W H c. apply replaces_copy; [|apply H]. intros a b -> Hb. destruct b as [|x b]; [congruence|]. apply joining_none, join_other. apply all_app in W as [_ W]. apply all_cons in W as [W _]. destruct (is_blank x); [discriminate|reflexivity].
Qed.
Lemma blank_is_space c : is_blank c = true -> is_space c = true.
Proof. unfold is_blank, is_space. lia. Qed.
Lemma rep_word w r o : word_ok w -> (forall c, replaces joining c r o) -> forall c, replaces joining c (w ++ r) (w ++ o).
Proof. intros W. apply rep_chars. intros x Hx. destruct (word_visible w W) as [_ V]. specialize (V x Hx). cbv beta in V. destruct (is_blank x) eqn:E; [|reflexivity]. apply blank_is_space in E. rewrite E in V. discriminate. Qed.
Lemma rep_spaces n r o : fine r -> (forall c, replaces joining c r o) -> forall c, replaces joining c (spaces n ++ r) (spaces n ++ o).
Proof.
  intros F H. induction n as [|n IH]; intros c; [apply H|]. cbn [spaces repeat app]. apply rep_copy; [|apply IH]. apply joining_none. destruct n as [|n]; [apply F|]. apply join_no_plus. reflexivity.
Qed.
Lemma rep_sep s w r o : sep_ok s -> word_ok w -> (forall c, replaces joining c r o) -> forall c, replaces joining c (sep_text s ++ w ++ r) (spaces (S (gap_of s)) ++ w ++ o).
Proof.
  intros S W H c. destruct s as [n|n g m]; cbn [sep_text gap_of].
  - apply rep_spaces; [apply fine_word, W|]. apply rep_word; assumption.
  - cbn [sep_ok] in S. rewrite spaces_join, spaces_snoc.
    rewrite <- !app_assoc. cbn [app]. rewrite <- app_assoc. cbn [app]. apply rep_spaces; [apply fine_plus; reflexivity|]. intros c0.
    destruct (join_here c0 g m (w ++ r) S) as (l & E); [destruct W as (N & V & _); destruct w as [|y w]; [congruence|]; cbn; destruct (is_space y) eqn:Ey; [|reflexivity]; elim (V y); [left; reflexivity|apply blank_space, Ey]|].
    change (" "%char :: spaces m ++ w ++ o) with ([" "%char] ++ spaces m ++ w ++ o). eapply rep_match.
    + unfold by_. rewrite E. reflexivity.
    + cbn [snd length]. rewrite !app_length. cbn [length]. rewrite !app_length. lia.
    + cbn [fst snd]. apply rep_spaces; [apply fine_word, W|]. apply rep_word; assumption.
Qed.
Lemma rep_line l r o : line_ok l -> fine r -> (forall c, replaces joining c r o) -> forall c, replaces joining c (line_text l ++ r) (joined_line l ++ o).
Proof.
  intros L F H. destruct l as [n|lead w more trail]; cbn [line_text joined_line].
  - apply rep_spaces; assumption.
  - destruct L as [W M]. intros c. rewrite <- !app_assoc. apply rep_spaces; [apply fine_word, W|]. apply rep_word; [exact W|]. induction M as [|[s v] more [S V] M IH]; cbn [flat_map app].
    + apply rep_spaces; assumption.
    + cbn [fst snd] in *. intros c0. rewrite <- !app_assoc. apply rep_sep; assumption.
Qed.
Lemma rep_lines : forall ls, Forall line_ok ls -> forall c, replaces joining c (flat_map (fun l => nl :: line_text l) ls) (flat_map (fun l => nl :: joined_line l) ls).
Proof.
  induction 1 as [|l ls L F IH]; intros c; cbn [flat_map]; [apply rep_end; reflexivity|]. cbn [app]. apply rep_copy; [apply joining_none, join_other; reflexivity|]. apply rep_line; [exact L| |exact IH].
  apply fine_plus. destruct ls; [exact I|]. cbn. reflexivity.
Qed.
Lemma rep_directory k n ls : spells (txt "directory") k -> Forall line_ok ls -> regex_replace joining (k ++ directory_text n ls) = k ++ spaces n ++ flat_map (fun l => nl :: joined_line l) ls.
Proof.
  intros Sk F. apply regex_replace_is. unfold directory_text. apply rep_chars.
  - destruct (spells_visible (txt "directory") k) as [_ V]; [discriminate|letters|exact Sk|]. intros x Hx. specialize (V x Hx). cbv beta in V. destruct (is_blank x) eqn:E; [|reflexivity]. apply blank_is_space in E. rewrite E in V. discriminate.
  - apply rep_spaces; [|apply rep_lines, F]. apply fine_plus. destruct ls; [exact I|]. cbn. reflexivity.
Qed.

(** ** lines *)
Lemma split_one p a : all (fun x => negb (p x)) a -> split_at p a = [a].
Proof. induction a as [|x a IH]; intros W; [reflexivity|]. apply all_cons in W as [P W]. cbn [split_at]. destruct (p x); [discriminate|]. rewrite IH by exact W. reflexivity. Qed.
Lemma split_more p y r : p y = true -> forall a, all (fun x => negb (p x)) a -> split_at p (a ++ y :: r) = a :: split_at p r.
Proof. intros Y. induction a as [|x a IH]; intros W; cbn [app split_at]; [rewrite Y; reflexivity|]. apply all_cons in W as [P W]. destruct (p x); [discriminate|]. rewrite IH by exact W. reflexivity. Qed.
Lemma split_lines {A} p (y : ascii) (f : A -> str) : p y = true -> forall ls a, all (fun x => negb (p x)) a -> (forall l, In l ls -> all (fun x => negb (p x)) (f l)) -> split_at p (a ++ flat_map (fun l => y :: f l) ls) = a :: map f ls.
Proof.
  intros Y. induction ls as [|l ls IH]; intros a W H; cbn [flat_map map]; [rewrite app_nil_r; apply split_one, W|]. cbn [app]. rewrite split_more by assumption. f_equal. apply IH; [apply H; left; reflexivity|intros l' Hl; apply H; right; exact Hl].
Qed.
Lemma spaces_all (p : ascii -> bool) n : p " "%char = true -> all p (spaces n).
Proof. intros H c Hc. apply repeat_spec in Hc as ->. exact H. Qed.
Lemma visible_no_nl w : visible_word w -> all (fun x => negb (is_newline x)) w.
Proof. intros [_ V] x Hx. specialize (V x Hx). cbv beta in V. destruct (is_newline x) eqn:E; [|reflexivity]. unfold is_newline in E. unfold is_space in V. lia. Qed.
Lemma visible_no_blank w : visible_word w -> all (fun x => negb (is_blank x)) w.
Proof. intros [_ V] x Hx. specialize (V x Hx). cbv beta in V. destruct (is_blank x) eqn:E; [|reflexivity]. apply blank_is_space in E. rewrite E in V. discriminate. Qed.
Lemma line_no_nl l : line_ok l -> all (fun x => negb (is_newline x)) (joined_line l).
Proof.
  destruct l as [n|lead w more trail]; cbn [joined_line]; intros L; [apply spaces_all; reflexivity|]. destruct L as [W M]. apply all_app. split; [apply spaces_all; reflexivity|]. apply all_app. split; [apply visible_no_nl, word_visible, W|]. apply all_app. split; [|apply spaces_all; reflexivity].
  induction M as [|[s v] more [S V] M IH]; cbn [flat_map]; [apply all_nil|]. apply all_app. split; [|exact IH]. apply all_app. split; [apply spaces_all; reflexivity|apply visible_no_nl, word_visible, V].
Qed.

(** ** squeezing spaces *)
Definition squeezed (l : dir_line) : str := match l with Empty _ => [] | Entry _ w more _ => w ++ flat_map (fun sw => " "%char :: snd sw) more end.
Lemma squeeze_other c x r : is_blank x = false -> rx_squeeze (c, x :: r) = [].
Proof.
  intros H. assert (P : rx_plus is_blank (c, x :: r) = []) by (unfold rx_plus, rx_seq; rewrite chr_cons, H; reflexivity). unfold rx_squeeze, by_. unfold rx_seq at 1. unfold rx_bol. cbn [fst]. destruct c; cbn [flat_map]; rewrite ?P; unfold rx_seq at 1; rewrite P; unfold rx_seq; rewrite chr_cons, H; reflexivity.
Qed.
Lemma squeeze_end c : rx_squeeze (c, []) = [].
Proof. unfold rx_squeeze, by_, rx_seq, rx_bol. cbn. destruct c; reflexivity. Qed.
Lemma rev_spaces n : rev (spaces n) = spaces n.
Proof. induction n as [|n IH]; [reflexivity|]. cbn [spaces repeat rev]. change (repeat " "%char n) with (spaces n). rewrite IH. change [" "%char] with (spaces 1). rewrite spaces_app. replace (n + 1)%nat with (S n) by lia. reflexivity. Qed.
Lemma squeeze_lead n r : stops is_blank r -> exists l, rx_squeeze ([], spaces (S n) ++ r) = ([], (spaces (S n), r)) :: l.
Proof.
  intros S. destruct (first_plus is_blank (spaces (Datatypes.S n)) [] r ltac:(discriminate) (spaces_all _ _ eq_refl) S) as (l & E). unfold rx_squeeze, by_ at 1, rx_seq at 1, rx_bol. cbn [fst flat_map]. rewrite app_nil_r, E. cbn [map app]. rewrite app_nil_r.
  rewrite rev_spaces. eexists; reflexivity.
Qed.
Lemma blank_head (c : str) : exists y t, rev (spaces 1) ++ c = y :: t. Proof. cbn. eauto. Qed.
Lemma squeeze_trail x c n : exists q l, rx_squeeze (x :: c, spaces (S n)) = ([], q) :: l /\ snd q = [].
Proof.
  destruct (first_plus is_blank (spaces (S n)) (x :: c) [] ltac:(discriminate) (spaces_all _ _ eq_refl) I) as (l & E). rewrite app_nil_r in E. unfold rx_squeeze, by_ at 1, rx_seq at 1, rx_bol. cbn [fst flat_map map app]. unfold by_ at 1, rx_seq at 1. rewrite E. cbn [flat_map rx_eol snd app map]. eexists _, _. split; reflexivity.
Qed.
Lemma squeeze_mid x c n r : (exists y t, r = y :: t /\ is_blank y = false) ->
  (n = 0%nat -> rx_squeeze (x :: c, spaces (S n) ++ r) = []) /\ (n <> 0%nat -> exists q l, rx_squeeze (x :: c, spaces (S n) ++ r) = ([" "%char], q) :: l /\ snd q = r /\ fst q <> []).
Proof.
  intros (y & t & -> & Hy). assert (A2 : rx_seq (rx_plus is_blank) rx_eol (x :: c, spaces (S n) ++ y :: t) = []).
  { destruct (rx_seq (rx_plus is_blank) rx_eol (x :: c, spaces (S n) ++ y :: t)) as [|q l] eqn:E; [reflexivity|]. exfalso. assert (I : In q (rx_seq (rx_plus is_blank) rx_eol (x :: c, spaces (S n) ++ y :: t))) by (rewrite E; left; reflexivity). apply in_seq in I as ([c' r'] & H1 & H2). apply in_plus in H1 as (b & w & W & Er & _).
    destruct r' as [|z r']; [|destruct H2]. rewrite app_nil_r in Er. assert (In y (b :: w)) by (rewrite <- Er; apply in_or_app; right; left; reflexivity). specialize (W y H). congruence. }
  assert (A1 : by_ [] (rx_seq rx_bol (rx_plus is_blank)) (x :: c, spaces (S n) ++ y :: t) = []) by reflexivity.
  assert (A3 : rx_squeeze (x :: c, spaces (S n) ++ y :: t) = by_ [" "%char] (rx_seq (rx_chr is_blank) (rx_plus is_blank)) (x :: c, " "%char :: spaces n ++ y :: t)) by (unfold rx_squeeze; rewrite A1; unfold by_ at 1; rewrite A2; reflexivity).
  rewrite A3. unfold by_, rx_seq at 1 2. split.
  - intros ->. change (spaces 0 ++ y :: t) with (y :: t). rewrite first_chr by reflexivity. cbn [flat_map]. unfold rx_plus, rx_seq. rewrite chr_cons, Hy. reflexivity.
  - intros Hn. destruct n as [|n]; [congruence|].
    rewrite first_chr by reflexivity. cbn [flat_map]. destruct (first_plus is_blank (spaces (S n)) (" "%char :: x :: c) (y :: t) ltac:(discriminate) (spaces_all _ _ eq_refl) Hy) as (l & E).
    rewrite E. cbn [app map]. eexists _, _. split; [reflexivity|]. cbn [fst snd]. split; [reflexivity|]. intros H. apply app_eq_nil in H as [_ H]. discriminate.
Qed.
Lemma sq_word w r o c : visible_word w -> (forall x c', replaces rx_squeeze (x :: c') r o) -> replaces rx_squeeze c (w ++ r) (w ++ o).
Proof.
  intros V H. apply replaces_copy.
  - intros a b -> Hb. destruct b as [|x b]; [congruence|]. apply squeeze_other. apply visible_no_blank in V. apply all_app in V as [_ V]. apply all_cons in V as [V _]. destruct (is_blank x); [discriminate|reflexivity].
  - destruct (rev w ++ c) as [|x c'] eqn:E; [|apply H]. apply app_eq_nil in E as [E _]. destruct V as [N _]. elim N. rewrite <- (rev_involutive w), E. reflexivity.
Qed.
Lemma sq_gap n w r o x c : visible_word w -> (forall x c', replaces rx_squeeze (x :: c') r o) -> replaces rx_squeeze (x :: c) (spaces (S n) ++ w ++ r) (" "%char :: w ++ o).
Proof.
  intros V H. destruct (squeeze_mid x c n (w ++ r)) as [M0 M1].
  { destruct w as [|y w]; [destruct V as [V _]; congruence|]. exists y, (w ++ r). split; [reflexivity|]. apply visible_no_blank in V. apply all_cons in V as [V _]. destruct (is_blank y); [discriminate|reflexivity]. }
  destruct (Nat.eq_dec n 0) as [->|Hn].
  - change (spaces 1 ++ w ++ r) with (" "%char :: w ++ r) in *. apply rep_copy; [apply M0; reflexivity|]. apply sq_word; assumption.
  - destruct (M1 Hn) as (q & l & E & Eq & _). change (" "%char :: w ++ o) with ([" "%char] ++ w ++ o). eapply rep_match; [exact E|rewrite Eq, !app_length; cbn; lia|]. rewrite Eq. apply sq_word; assumption.
Qed.
Lemma sq_trail n x c : replaces rx_squeeze (x :: c) (spaces n) [].
Proof.
  destruct n as [|n]; [apply rep_end, squeeze_end|]. destruct (squeeze_trail x c n) as (q & l & E & Eq). change (@nil ascii) with ((@nil ascii) ++ []). eapply rep_match; [exact E|rewrite Eq; cbn; lia|]. rewrite Eq. apply rep_end, squeeze_end.
Qed.
Lemma sq_lead n r o : stops is_blank r -> (forall c, replaces rx_squeeze c r o) -> replaces rx_squeeze [] (spaces n ++ r) o.
Proof.
  intros S H. destruct n as [|n]; [apply H|]. destruct (squeeze_lead n r S) as (l & E). change o with ([] ++ o). eapply rep_match; [exact E|cbn [snd]; rewrite app_length; cbn; lia|]. apply H.
Qed.
Lemma squeeze_line l : line_ok l -> regex_replace rx_squeeze (joined_line l) = squeezed l.
Proof.
  intros L. apply regex_replace_is. destruct l as [n|lead w more trail]; cbn [joined_line squeezed].
  - rewrite <- (app_nil_r (spaces n)). apply sq_lead; [exact I|]. intros c. apply rep_end, squeeze_end.
  - destruct L as [W M]. apply word_visible in W. apply sq_lead.
    + destruct w as [|y w]; [destruct W as [W _]; congruence|]. cbn. apply visible_no_blank in W. apply all_cons in W as [W _]. destruct (is_blank y); [discriminate|reflexivity].
    + intros c. apply sq_word; [exact W|]. clear c W w. induction M as [|[s v] more [S V] M IH]; intros x c; cbn [flat_map app]; [apply sq_trail|]. cbn [fst snd]. rewrite <- !app_assoc. apply sq_gap; [apply word_visible, V|exact IH].
Qed.
Lemma line_words_ok l : line_ok l -> line_words (joined_line l) = line_entry l.
Proof.
  intros L. unfold line_words. rewrite squeeze_line by exact L. destruct l as [n|lead w more trail]; cbn [squeezed line_entry]; [reflexivity|]. destruct L as [W M].
  assert (E : split_at is_blank (w ++ flat_map (fun sw => " "%char :: snd sw) more) = w :: map snd more).
  { apply split_lines; [reflexivity|apply visible_no_blank, word_visible, W|]. intros [s v] Hsv. rewrite Forall_forall in M. destruct (M _ Hsv) as [_ V]. apply visible_no_blank, word_visible, V. }
  destruct (w ++ flat_map (fun sw => " "%char :: snd sw) more) eqn:Ew; [|exact E]. apply app_eq_nil in Ew as [-> _]. destruct W as (W & _). congruence.
Qed.
Lemma read_lines_ok text0 pre k n ls : text0 = pre ++ k ++ directory_text n ls -> spells (txt "directory") k -> not_before (txt "directory") pre (k ++ directory_text n ls) -> Forall line_ok ls ->
  read_lines text0 = Ok (map line_entry ls).
Proof.
  intros -> Sk B F. change (txt "directory") with kw_directory in *. unfold read_lines, regex_find. rewrite find_skip.
  - pose proof (first_ci kw_directory k (rev pre ++ []) (directory_text n ls) low_directory Sk) as E. rewrite (find_here rx_directory _ _ _ _ E). cbn [fst snd]. rewrite rep_directory by assumption. rewrite app_assoc.
    rewrite (split_lines is_newline nl joined_line eq_refl).
    + cbn [tl]. rewrite map_map. f_equal. apply map_ext_in. intros l Hl. rewrite Forall_forall in F. apply line_words_ok, F, Hl.
    + apply all_app. split; [|apply spaces_all; reflexivity]. apply visible_no_nl. apply (spells_visible kw_directory); [discriminate|letters|exact Sk].
    + intros l Hl. rewrite Forall_forall in F. apply line_no_nl, F, Hl.
  - intros a b E Hb. apply ci_no0; [exact low_directory|]. exact (B a b E Hb).
Qed.
Lemma read_lines_none text0 : nowhere (txt "directory") text0 -> read_lines text0 = Throw.
Proof. intros H. unfold read_lines, regex_find. rewrite find_none; [reflexivity|]. intros a b E. apply ci_no0; [exact low_directory|]. exact (H a b E). Qed.

(** ** paths *)
Lemma slash_is c : is_slash c = true <-> c = "/"%char.
Proof. unfold is_slash. split; [intros H; apply code_inj; change (code "/"%char) with 47; lia|intros ->; reflexivity]. Qed.
Lemma path_join_located d f : f <> [] -> located d f (path_join d f).
Proof.
  intros N. destruct f as [|x f]; [congruence|]. unfold path_join. destruct (is_slash x) eqn:E; [apply slash_is in E as ->; apply loc_absolute|].
  assert (A : forall r, x :: f <> "/"%char :: r) by (intros r H; injection H as -> _; discriminate). destruct d as [|y d]; [apply loc_here|]. destruct (exists_last (l := y :: d) ltac:(discriminate)) as (d' & z & Ed). rewrite Ed, last_last. destruct (is_slash z) eqn:Ez.
  - apply slash_is in Ez as ->. rewrite <- app_assoc. apply loc_slash, A.
  - rewrite <- app_assoc. apply loc_in; [exact A|]. intros ->. discriminate.
Qed.
Lemma located_join d f p : f <> [] -> located d f p -> p = path_join d f.
Proof.
  intros N L. destruct L as [d r|f|d f A|d c f A C]; unfold path_join.
  - reflexivity.
  - destruct f as [|x f]; [congruence|]. destruct (is_slash x); reflexivity.
  - destruct f as [|x f]; [congruence|]. destruct (is_slash x) eqn:E; [apply slash_is in E as ->; elim (A f eq_refl)|]. rewrite last_last. cbn. rewrite <- app_assoc. destruct d; reflexivity.
  - destruct f as [|x f]; [congruence|]. destruct (is_slash x) eqn:E; [apply slash_is in E as ->; elim (A f eq_refl)|]. rewrite last_last. destruct (is_slash c) eqn:Ec; [apply slash_is in Ec; congruence|]. rewrite <- app_assoc. destruct d; reflexivity.
Qed.
