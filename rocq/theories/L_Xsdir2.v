(** * Lemmas for C86: atomic weight ratios, data path, directory *)
From Coq Require Import String Ascii List. Import ListNotations.
From Coq Require Import Lia ZifyBool ZifyNat.
From Verif Require Import Base M_Grid L_Search M_Ident L_Ident L_Ident2 S_Ident L_Ident3 M_Library M_Xsdir S_Xsdir L_Xsdir.
Local Open Scope list_scope.
Local Open Scope Z_scope.
Local Open Scope bool_scope.

(** ** words *)
Definition visible_word (w : str) : Prop := w <> [] /\ all (fun c => negb (is_space c)) w.
Definition word_end (r : str) : Prop := match r with [] => True | x :: _ => is_space x = true end.
Lemma words_gap : forall g r, all is_space g -> words_aux [] (g ++ r) = words_aux [] r.
Proof. induction g as [|x g IH]; intros r W; [reflexivity|]. apply all_cons in W as [P W]. cbn [app words_aux]. rewrite P. apply IH, W. Qed.
Lemma words_in : forall w cur r, all (fun c => negb (is_space c)) w -> words_aux cur (w ++ r) = words_aux (rev w ++ cur) r.
Proof.
  induction w as [|x w IH]; intros cur r W; [reflexivity|]. apply all_cons in W as [P W]. cbn [app words_aux]. destruct (is_space x); [discriminate|]. rewrite IH by exact W. cbn [rev]. rewrite <- app_assoc. reflexivity.
Qed.
Lemma words_stop cur r : cur <> [] -> word_end r -> words_aux cur r = rev cur :: words_of r.
Proof. intros N E. unfold words_of. destruct cur as [|k cur]; [congruence|]. destruct r as [|x r]; cbn [words_aux]; [reflexivity|]. cbn in E. rewrite E. reflexivity. Qed.
Lemma words_next g w r : all is_space g -> visible_word w -> word_end r -> words_of (g ++ w ++ r) = w :: words_of r.
Proof.
  intros G [N W] E. unfold words_of at 1. rewrite words_gap by exact G. rewrite words_in by exact W. rewrite app_nil_r. rewrite words_stop; [|intros H; apply N; rewrite <- (rev_involutive w), H; reflexivity|exact E]. rewrite rev_involutive. reflexivity.
Qed.
Lemma words_blank g : all is_space g -> words_of g = [].
Proof. intros G. unfold words_of. rewrite <- (app_nil_r g). rewrite words_gap by exact G. reflexivity. Qed.
Lemma gap_word_end g r : g <> [] -> all is_space g -> word_end (g ++ r).
Proof. intros N W. destruct g as [|x g]; [congruence|]. cbn. apply W. left. reflexivity. Qed.
Lemma digits_visible w : digits w -> visible_word w.
Proof. intros H. apply digits_all in H as [N W]. split; [exact N|]. intros c Hc. rewrite digit_not_space by (apply W, Hc). reflexivity. Qed.
Lemma value_visible p : pair_ok p -> visible_word (p_value p).
Proof.
  intros (_ & _ & _ & _ & Di & Df). destruct (digits_visible _ Di) as [_ Wi], (digits_visible _ Df) as [_ Wf]. unfold p_value. split; [intros H; apply app_eq_nil in H as [_ H]; discriminate|]. apply all_app. split; [exact Wi|]. apply all_cons. split; [reflexivity|exact Wf].
Qed.
Lemma spells_visible w u : w <> [] -> Forall (fun c => (97 <= nat_of_ascii c <= 122)%nat) w -> spells w u -> visible_word u.
Proof.
  intros N F S. split; [intros ->; inversion S; congruence|]. clear N. induction S as [|k x w u H S IH]; [apply all_nil|]. inversion F; subst. apply all_cons. split; [|apply IH; assumption]. unfold is_space. rewrite code_nat_of. destruct H as [->|H]; lia.
Qed.
Definition pair_words (p : awr_pair) : list str := [p_zaid p; p_value p].
Lemma words_pairs : forall ps, Forall pair_ok ps -> words_of (flat_map pair_text ps) = flat_map pair_words ps.
Proof.
  induction 1 as [|p ps P F IH]; [reflexivity|]. pose proof P as (G1 & Dz & Lz & G2 & Di & Df). apply gap_all in G1 as [N1 W1], G2 as [N2 W2]. cbn [flat_map]. unfold pair_text at 1. rewrite <- !app_assoc.
  rewrite words_next; [|exact W1|apply digits_visible, Dz|apply gap_word_end; assumption]. rewrite words_next; [|exact W2|apply value_visible, P|].
  - rewrite IH. reflexivity.
  - destruct F as [|p' ps' P' F']; [exact I|]. cbn [flat_map]. unfold pair_text at 1. rewrite <- !app_assoc. destruct P' as (G & _). apply gap_all in G as [N W]. apply gap_word_end; assumption.
Qed.
Ltac letters := repeat (constructor; [vm_compute; lia|]); constructor.
Lemma words_title title ps : awr_title title -> Forall pair_ok ps -> skipn 3 (words_of (title ++ flat_map pair_text ps)) = flat_map pair_words ps.
Proof.
  intros (a & g1 & w & g2 & r & -> & Sa & G1 & Sw & G2 & Sr) F. apply gap_all in G1 as [N1 W1], G2 as [N2 W2]. rewrite <- !app_assoc.
  change (a ++ g1 ++ w ++ g2 ++ r ++ flat_map pair_text ps) with ([] ++ a ++ g1 ++ w ++ g2 ++ r ++ flat_map pair_text ps).
  rewrite words_next; [|apply all_nil|apply (spells_visible (txt "atomic")); [discriminate|letters|exact Sa]|apply gap_word_end; assumption].
  rewrite words_next; [|exact W1|apply (spells_visible (txt "weight")); [discriminate|letters|exact Sw]|apply gap_word_end; assumption].
  rewrite words_next; [|exact W2|apply (spells_visible (txt "ratios")); [discriminate|letters|exact Sr]|].
  - cbn [skipn]. apply words_pairs, F.
  - destruct F as [|p' ps' P' F']; [exact I|]. cbn [flat_map]. unfold pair_text at 1. rewrite <- !app_assoc. destruct P' as (G & _). apply gap_all in G as [N W]. apply gap_word_end; assumption.
Qed.
Section Awr.
  Context {T : Type} {N : Num T}.
  Variable stod : str -> res T.
  Lemma read_awrs_ok text0 pre title ps post : text0 = pre ++ title ++ flat_map pair_text ps ++ post -> awr_title title -> ps <> [] -> Forall pair_ok ps -> ends_pairs post ->
    not_before (txt "atomic") pre (title ++ flat_map pair_text ps ++ post) -> read_awrs stod text0 = awr_pairs stod (flat_map pair_words ps) [].
  Proof.
    intros -> Ht Np F E B. unfold read_awrs, regex_find. rewrite find_skip.
    - destruct (first_awr title ps (rev pre ++ []) post Ht Np F E) as (l & E1). rewrite app_assoc. rewrite (find_here rx_awr _ _ _ _ E1). rewrite match_str_app by reflexivity. rewrite words_title by assumption. reflexivity.
    - intros a b Hp Hb. unfold rx_awr. apply ci_no; [exact low_atomic|]. exact (B a b Hp Hb).
  Qed.
  Lemma read_awrs_none text0 : nowhere (txt "atomic") text0 -> read_awrs stod text0 = Throw.
  Proof. intros H. unfold read_awrs, regex_find. rewrite find_none; [reflexivity|]. intros a b E. apply ci_no; [exact low_atomic|]. exact (H a b E). Qed.
End Awr.

(** ** data path *)
Lemma path_char_iff c : is_path_char c = true <-> path_char c.
Proof.
  unfold is_path_char, is_blank, is_dot, is_word, is_upper, is_lower, is_digit, path_char. rewrite !code_nat_of. pose proof (nat_ascii_bounded c). cbn [In]. split; intros H'; lia.
Qed.
Lemma blank_path c : is_path_char c = true -> is_space c = true -> c = " "%char.
Proof. unfold is_path_char, is_blank, is_dot, is_word, is_upper, is_lower, is_digit, is_space. intros H1 H2. apply code_inj. change (code " "%char) with 32. lia. Qed.
Definition not_path (post : str) : Prop := match post with [] => True | x :: _ => ~ path_char x end.
Lemma eq_blank g2 d r : blanks g2 -> path_text d -> stops is_equals (g2 ++ d ++ r).
Proof.
  intros G ((x & t & -> & _) & P). apply blanks_all in G. destruct g2 as [|y g2]; cbn.
  - specialize (P x (or_introl eq_refl)). apply path_char_iff in P. unfold is_path_char, is_blank, is_dot, is_word, is_upper, is_lower, is_digit in P. unfold is_equals. lia.
  - apply all_cons in G as [G _]. unfold is_space in G. unfold is_equals. lia.
Qed.
Lemma path_no_space d r : path_text d -> stops is_space (d ++ r).
Proof. intros ((x & t & -> & N) & P). cbn. destruct (is_space x) eqn:E; [|reflexivity]. elim N. apply blank_path; [|exact E]. apply path_char_iff, P. left. reflexivity. Qed.
Lemma first_assign e d c r (tail : regex) q l : assigns e -> path_text d -> tail (rev e ++ c, d ++ r) = q :: l ->
  exists l', rx_seq (rx_star is_space) (rx_seq (rx_upto 1 is_equals) (rx_seq (rx_star is_space) tail)) (c, e ++ d ++ r) = q :: l'.
Proof.
  intros (g1 & g2 & G1 & G2 & He) P Et. pose proof G1 as W1. pose proof G2 as W2. apply blanks_all in W1, W2. destruct He as [->| ->].
  - destruct (first_star is_space (g1 ++ g2) c (d ++ r)) as (l1 & E1); [apply all_app; auto|apply path_no_space, P|].
    destruct (first_upto is_equals 1 [] (rev (g1 ++ g2) ++ c) (d ++ r) (all_nil _)) as (l2 & E2); [right; split; [cbn; lia|]; exact (eq_blank [] d r ltac:(intros ? []) P)|].
    destruct (first_star is_space [] (rev (g1 ++ g2) ++ c) (d ++ r) (all_nil _) (path_no_space d r P)) as (l3 & E3). cbn [app rev] in E2, E3.
    destruct (first_seq _ tail _ _ _ _ _ E3 Et) as (l4 & E4). destruct (first_seq _ _ _ _ _ _ _ E2 E4) as (l5 & E5). exact (first_seq _ _ _ _ _ _ _ E1 E5).
  - rewrite <- app_assoc. cbn [app]. destruct (first_star is_space g1 c ("="%char :: g2 ++ d ++ r) W1 eq_refl) as (l1 & E1).
    destruct (first_upto is_equals 1 ["="%char] (rev g1 ++ c) (g2 ++ d ++ r)) as (l2 & E2); [apply all_cons; split; [reflexivity|apply all_nil]|left; reflexivity|].
    destruct (first_star is_space g2 ("="%char :: rev g1 ++ c) (d ++ r) W2 (path_no_space d r P)) as (l3 & E3). cbn [app rev] in E2.
    assert (Et' : tail (rev g2 ++ "="%char :: rev g1 ++ c, d ++ r) = q :: l). { rewrite rev_app_distr in Et. cbn [rev] in Et. rewrite <- !app_assoc in Et. exact Et. }
    destruct (first_seq _ tail _ _ _ _ _ E3 Et') as (l4 & E4). destruct (first_seq _ _ _ _ _ _ _ E2 E4) as (l5 & E5). exact (first_seq _ _ _ _ _ _ _ E1 E5).
Qed.
Lemma seq_unit (e : regex) s : rx_seq e (fun q => [q]) s = e s.
Proof. unfold rx_seq. induction (e s) as [|q l IH]; [reflexivity|]. cbn. rewrite IH. reflexivity. Qed.
Lemma seq_ext (a b b' : regex) s : (forall q, b q = b' q) -> rx_seq a b s = rx_seq a b' s.
Proof. intros H. unfold rx_seq. induction (a s) as [|q l IH]; [reflexivity|]. cbn. rewrite H, IH. reflexivity. Qed.
Lemma remove_none e : forall r c f, (forall a b, r = a ++ b -> e (rev a ++ c, b) = []) -> remove_all f e c r = r.
Proof.
  induction r as [|x r IH]; intros c f H; (destruct f as [|f]; [reflexivity|]); cbn [remove_all]; rewrite (H [] _ eq_refl : e (c, _) = []); [reflexivity|]. f_equal. apply IH. intros a b ->. specialize (H (x :: a) b eq_refl). cbn [rev] in H. rewrite <- app_assoc in H. exact H.
Qed.
Lemma read_datapath_ok parent text0 pre k e d post : text0 = pre ++ k ++ e ++ d ++ post -> spells (txt "datapath") k -> not_before (txt "datapath") pre (k ++ e ++ d ++ post) ->
  assigns e -> path_text d -> not_path post -> nowhere (txt "datapath") d -> read_datapath parent text0 = d.
Proof.
  intros -> Sk B A P Np Nd. change (txt "datapath") with kw_datapath in *. unfold read_datapath, regex_find. rewrite find_skip.
  - pose proof (first_ci kw_datapath k (rev pre ++ []) (e ++ d ++ post) low_datapath Sk) as E1. pose proof P as ((x & t & Hd & _) & Pc).
    destruct (first_plus is_path_char d (rev e ++ rev k ++ rev pre ++ []) post) as (l2 & E2); [intros ->; discriminate|intros c Hc; apply path_char_iff, Pc, Hc|destruct post as [|y post]; [exact I|]; cbn in Np |- *; destruct (is_path_char y) eqn:Q; [elim Np; apply path_char_iff, Q|reflexivity]|].
    destruct (first_assign e d (rev k ++ rev pre ++ []) post _ _ _ A P E2) as (l3 & E3). destruct (first_seq _ _ _ _ _ _ _ E1 E3) as (l4 & E4).
    change (rx_datapath (rev pre ++ [], k ++ e ++ d ++ post) = (rev d ++ rev e ++ rev k ++ rev pre ++ [], post) :: l4) in E4. rewrite (find_here rx_datapath _ _ _ _ E4). replace (k ++ e ++ d ++ post) with ((k ++ e ++ d) ++ post) by (rewrite <- !app_assoc; reflexivity). rewrite match_str_app by reflexivity.
    unfold regex_remove. cbn [remove_all]. pose proof (first_ci kw_datapath k [] (e ++ d) low_datapath Sk) as E5.
    destruct (first_assign e d (rev k ++ []) [] (fun q => [q]) _ _ A P eq_refl) as (l6 & E6). rewrite (app_nil_r d) in E6.
    assert (E7 : exists l7, rx_datapath_key ([], k ++ e ++ d) = (rev e ++ rev k ++ [], d) :: l7).
    { unfold rx_datapath_key. rewrite (seq_ext _ _ (rx_seq (rx_star is_space) (rx_seq (rx_upto 1 is_equals) (rx_seq (rx_star is_space) (fun q => [q]))))).
      - exact (first_seq _ _ _ _ _ _ _ E5 E6).
      - intros q. apply seq_ext. intros q'. apply seq_ext. intros q''. symmetry. apply seq_unit. }
    destruct E7 as (l7 & E7). rewrite E7. cbn [fst snd]. apply remove_none. intros a b E. unfold rx_datapath_key. apply ci_no; [exact low_datapath|]. exact (Nd a b E).
  - intros a b E Hb. unfold rx_datapath. apply ci_no; [exact low_datapath|]. exact (B a b E Hb).
Qed.
Lemma read_datapath_none parent text0 : nowhere (txt "datapath") text0 -> read_datapath parent text0 = parent.
Proof. intros H. unfold read_datapath, regex_find. rewrite find_none; [reflexivity|]. intros a b E. apply ci_no; [exact low_datapath|]. exact (H a b E). Qed.

(** ** joining continuation lines *)
Lemma space_code c : is_space c = true <-> blank c.
Proof. symmetry. apply blank_space. Qed.
Lemma chr_cons p c x r : rx_chr p (c, x :: r) = if p x then [(x :: c, r)] else [].
Proof. reflexivity. Qed.
Lemma join_other c x r : is_blank x = false -> rx_join (c, x :: r) = [].
Proof. intros H. unfold rx_join, rx_seq at 1. rewrite chr_cons, H. reflexivity. Qed.
Definition is_plus (c : ascii) : bool := code c =? 43.
Lemma join_blank c x r : is_blank x = true -> rx_join (c, x :: r) = rx_seq (rx_chr is_plus) (rx_seq (rx_opt (rx_plus is_space)) (rx_chr is_newline)) (x :: c, r).
Proof. intros H. unfold rx_join, rx_seq at 1. rewrite chr_cons, H. cbn [flat_map]. rewrite app_nil_r. reflexivity. Qed.
Lemma join_no_plus c x r : stops is_plus r -> rx_join (c, x :: r) = [].
Proof. intros H. destruct (is_blank x) eqn:E; [|apply join_other, E]. rewrite join_blank by exact E. destruct r as [|y r]; [reflexivity|]. cbn in H. unfold rx_seq at 1. rewrite chr_cons, H. reflexivity. Qed.
Lemma join_no_gap c x y z r : is_space z = false -> rx_join (c, x :: y :: z :: r) = [].
Proof.
  intros H. destruct (is_blank x) eqn:E; [|apply join_other, E]. rewrite join_blank by exact E. unfold rx_seq at 1. rewrite chr_cons. destruct (is_plus y); [|reflexivity]. cbn [flat_map]. rewrite app_nil_r. unfold rx_seq at 1, rx_opt, rx_plus, rx_seq. rewrite chr_cons, H. cbn [flat_map app]. rewrite chr_cons.
  replace (is_newline z) with false; [reflexivity|]. unfold is_newline. unfold is_space in H. lia.
Qed.
Lemma newline_last : forall u c v, all is_space u -> (forall c', flat_map (rx_chr is_newline) (rx_star_aux is_space c' v) = []) ->
  exists l, flat_map (rx_chr is_newline) (rx_star_aux is_space c (u ++ nl :: v)) = (nl :: rev u ++ c, v) :: l.
Proof.
  induction u as [|x u IH]; intros c v W H.
  - cbn [app rx_star_aux]. change (is_space nl) with true. cbv iota. rewrite flat_map_app, H. cbn. eexists; reflexivity.
  - apply all_cons in W as [P W]. cbn [app rx_star_aux]. rewrite P. rewrite flat_map_app. destruct (IH (x :: c) v W H) as (l & ->). cbn [rev app]. rewrite <- app_assoc. eexists; reflexivity.
Qed.
Lemma blank_run : forall m c r, stops is_space r -> flat_map (rx_chr is_newline) (rx_star_aux is_space c (spaces m ++ r)) = [].
Proof.
  induction m as [|m IH]; intros c r S.
  - cbn [spaces repeat app]. destruct r as [|x r]; [reflexivity|]. cbn in S. cbn [rx_star_aux]. rewrite S. cbn [flat_map app]. unfold rx_chr. cbn [snd fst]. replace (is_newline x) with false; [reflexivity|]. unfold is_newline. unfold is_space in S. lia.
  - cbn [spaces repeat app rx_star_aux]. change (is_space " ") with true. cbv iota. rewrite flat_map_app. change (repeat " "%char m ++ r) with (spaces m ++ r). rewrite (IH _ r S). reflexivity.
Qed.
Lemma join_here c g m r : blanks g -> stops is_space r -> exists l, rx_join (c, " "%char :: "+"%char :: g ++ nl :: spaces m ++ r) = (nl :: rev g ++ "+"%char :: " "%char :: c, spaces m ++ r) :: l.
Proof.
  intros G S. apply blanks_all in G. rewrite join_blank by reflexivity. unfold rx_seq at 1. rewrite first_chr by reflexivity. cbn [flat_map]. rewrite app_nil_r. set (c0 := "+"%char :: " "%char :: c).
  unfold rx_seq, rx_opt. rewrite flat_map_app. unfold rx_plus, rx_seq, rx_star. destruct g as [|x g].
  - cbn [app]. rewrite first_chr by reflexivity. cbn [flat_map fst snd]. rewrite app_nil_r, blank_run by exact S. cbn. eexists; reflexivity.
  - apply all_cons in G as [P G]. cbn [app]. rewrite first_chr by exact P. cbn [flat_map fst snd]. rewrite app_nil_r. destruct (newline_last g (x :: c0) (spaces m ++ r) G (fun c' => blank_run m c' r S)) as (l & ->). cbn [rev app]. rewrite <- !app_assoc. eexists; reflexivity.
Qed.
