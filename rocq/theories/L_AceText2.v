(** * Lemmas: headers and whole ASCII ACE files *)
From Coq Require Import Lia List ZArith Bool ZifyBool ZifyNat.
From Verif Require Import Base M_Grid M_Ident M_AceBin S_AceBin M_AceText S_AceText L_AceText.
Import ListNotations.
Local Open Scope Z_scope.

Lemma t_read_app n old a r : length a = n -> t_read n old (mkTs (a ++ r) false false) = (a, mkTs r false false).
Proof.
  intros H. unfold t_read. cbn [ts_good ts_eof ts_fail negb andb ts_bytes]. rewrite app_length. replace (n <=? length a + length r)%nat with true by lia.
  subst n. rewrite firstn_app, Nat.sub_diag, firstn_all, firstn_O, app_nil_r. rewrite skipn_app, skipn_all, Nat.sub_diag. reflexivity.
Qed.
Lemma t_ignore_app n a r : length a = n -> t_ignore n (mkTs (a ++ r) false false) = mkTs r false false.
Proof.
  intros H. unfold t_ignore. cbn [ts_good ts_eof ts_fail negb andb ts_bytes]. rewrite app_length. replace (n <=? length a + length r)%nat with true by lia.
  subst n. rewrite skipn_app, skipn_all, Nat.sub_diag. reflexivity.
Qed.
Lemma t_newline_yes b r : b = 10 \/ b = 13 -> t_newline (mkTs (b :: r) false false) = mkTs r false false.
Proof. intros [->| ->]; reflexivity. Qed.
Lemma t_newline_no r : plain r -> r <> [] -> t_newline (mkTs r false false) = mkTs r false false.
Proof.
  destruct r as [|b r]; [contradiction|]. intros [H1 H2] _. unfold t_newline, t_peek. cbn [ts_good ts_eof ts_fail negb andb ts_bytes is_char].
  replace (b =? 10) with false by lia. cbn [ts_good ts_eof ts_fail negb andb ts_bytes is_char]. replace (b =? 13) with false by lia. reflexivity.
Qed.
Lemma dated_text_read a t z x d body : dated_text x d -> x_zaid x = z ->
  dated a t z (mkTs (d ++ body) false false) = mkHeader a t (x_zaid x) (x_date x) (x_comment x) (x_mat x) (mkTs body false false).
Proof.
  intros (L1 & L2 & L3 & HP & nl & Hnl & ->) <-. unfold dated. rewrite <- !app_assoc. rewrite t_read_app by assumption.
  assert (E : t_newline (t_newline (mkTs (nl ++ x_comment x ++ x_mat x ++ body) false false)) = mkTs (x_comment x ++ x_mat x ++ body) false false).
  { assert (NE : x_comment x ++ x_mat x ++ body <> []) by (destruct (x_comment x); [discriminate|discriminate]).
    assert (PL : plain (x_comment x ++ x_mat x ++ body)) by (destruct (x_comment x); [discriminate|exact HP]).
    destruct Hnl as [->| ->]; cbn [app].
    - rewrite (t_newline_yes 10) by (left; reflexivity). apply t_newline_no; assumption.
    - rewrite (t_newline_yes 13) by (right; reflexivity). apply t_newline_yes. left; reflexivity. }
  rewrite E. rewrite t_read_app by assumption. rewrite t_read_app by assumption. reflexivity.
Qed.

Lemma line_of_app m r : ~ In 10 m -> line_of (m ++ 10 :: r) = (m, Some r).
Proof.
  induction m as [|b m IH]; intro H; [reflexivity|]. cbn [app line_of]. replace (b =? 10) with false by (symmetry; apply Z.eqb_neq; intro; apply H; left; auto).
  rewrite IH by (intro; apply H; right; assumption). reflexivity.
Qed.
Lemma t_getline_app old m r : ~ In 10 m -> t_getline old (mkTs (m ++ 10 :: r) false false) = (m, mkTs r false false).
Proof. intro H. unfold t_getline. cbn [ts_good ts_eof ts_fail negb andb ts_bytes]. rewrite line_of_app by assumption. reflexivity. Qed.
Lemma skip_lines_app ls : forall old body, Forall a_line ls -> skip_lines (length ls) old (mkTs (concat ls ++ body) false false) = mkTs body false false.
Proof.
  induction ls as [|l ls IH]; intros old body H; [reflexivity|]. inversion H as [|? ? (m & Hm & ->) H2]; subst. cbn [length skip_lines concat].
  rewrite <- !app_assoc. cbn [app]. rewrite t_getline_app by assumption. apply IH. assumption.
Qed.

(** ** split_line *)
Lemma split_spaces s r : spaces s -> split_line_go (s ++ r) [] = split_line_go r [].
Proof. induction 1 as [|b s E _ IH]; [reflexivity|]. subst b. exact IH. Qed.
Lemma split_word w r : forall tmp, ~ In 32 w -> split_line_go (w ++ r) tmp = split_line_go r (tmp ++ w).
Proof.
  induction w as [|b w IH]; intros tmp H; [rewrite app_nil_r; reflexivity|]. cbn [app split_line_go]. replace (b =? 32) with false by (symmetry; apply Z.eqb_neq; intro; apply H; left; auto).
  rewrite IH by (intro; apply H; right; assumption). rewrite <- app_assoc. reflexivity.
Qed.
Lemma split_word_gap w s r : no_space w -> spaces s -> s <> [] -> split_line_go (w ++ s ++ r) [] = w :: split_line_go r [].
Proof.
  intros [H1 H2] Hs Hn. rewrite split_word by assumption. cbn [app]. destruct s as [|b s]; [contradiction|]. inversion Hs; subst. cbn [app split_line_go]. cbn [Z.eqb Pos.eqb].
  destruct w; [contradiction|]. f_equal. apply split_spaces. assumption.
Qed.
Lemma split_word_last w r : no_space w -> (r = [] \/ exists r', r = 32 :: r') -> exists q, split_line_go (w ++ r) [] = w :: q.
Proof.
  intros [H1 H2] [->|(r' & ->)]; rewrite split_word by assumption; cbn [app split_line_go Z.eqb Pos.eqb]; (destruct w; [contradiction|]); eexists; reflexivity.
Qed.
Lemma second_line_split awr temp skip l : second_line awr temp skip l -> exists w q, split_line l = awr :: temp :: w :: skip :: q.
Proof.
  intros (s0 & s1 & w & s2 & s3 & r & H0 & H1 & N1 & H2 & N2 & H3 & N3 & Wa & Wt & Ww & Ws & Hr & ->). unfold split_line. rewrite split_spaces by assumption.
  rewrite !split_word_gap by assumption. destruct (split_word_last skip r Ws Hr) as (q & ->). exists w, q. reflexivity.
Qed.

Section Text.
  Variable strtod : list Z -> Z * bool.
  Variable stod : list Z -> res Z.
  Variable stoi : list Z -> res Z.
  Definition head_of (bytes : list Z) : res header := if starts_modern bytes then modern_header stod stoi (at_start bytes) else legacy_header stod (at_start bytes).
  Definition header_of (x : texts) (awr t : Z) (body : list Z) : header := mkHeader awr (to_kelvin_bits t) (x_zaid x) (x_date x) (x_comment x) (x_mat x) (mkTs body false false).
  Lemma starts_app z r : (2 <= length z)%nat -> ~ (nth 0 z 0 = 50 /\ nth 1 z 0 = 46) -> starts_modern (z ++ r) = false.
  Proof.
    destruct z as [|a [|b z]]; cbn [length]; try lia. intros _ H. cbn [nth app] in *.
    destruct (Z.eq_dec a 50) as [->|Ha].
    - destruct (Z.eq_dec b 46) as [->|Hb]; [exfalso; apply H; split; reflexivity|]. cbn [starts_modern].
      repeat (match goal with |- match ?p with _ => _ end = _ => is_var p; destruct p; try reflexivity end); congruence.
    - cbn [starts_modern]. repeat (match goal with |- match ?p with _ => _ end = _ => is_var p; destruct p; try reflexivity end); congruence.
  Qed.
  Lemma modern_lines awr temp l1 skip l2 rest a t n : ~ In 10 l1 -> ~ In 10 l2 -> second_line awr temp skip l2 -> stoi skip = Ok n -> stod awr = Ok a -> stod temp = Ok t ->
    modern_header stod stoi (mkTs (50 :: 46 :: l1 ++ [10] ++ l2 ++ [10] ++ rest) false false) =
    if n =? 2 then let '(zaid_txt, s) := t_read 10 (repeat 32 10) (mkTs rest false false) in Ok (dated a (to_kelvin_bits t) zaid_txt (t_ignore 25 s))
    else Ok (mkHeader a (to_kelvin_bits t) (repeat 32 10) (repeat 32 10) (repeat 32 70) (repeat 32 10) (skip_lines (Z.to_nat n) l2 (mkTs rest false false))).
  Proof.
    intros H1 H2 HS Hn Ha Ht. unfold modern_header. change (50 :: 46 :: l1 ++ [10] ++ l2 ++ [10] ++ rest) with ((50 :: 46 :: l1) ++ 10 :: l2 ++ 10 :: rest).
    rewrite t_getline_app by (intros [E|[E|E]]; [discriminate|discriminate|exact (H1 E)]). rewrite t_getline_app by assumption.
    destruct (second_line_split _ _ _ _ HS) as (w & q & ->). cbn [atZ]. 
    change (atZ (awr :: temp :: w :: skip :: q) 0) with (Ok awr). change (atZ (awr :: temp :: w :: skip :: q) 1) with (Ok temp). change (atZ (awr :: temp :: w :: skip :: q) 3) with (Ok skip).
    cbn [bind]. rewrite Ha, Ht. cbn [bind]. rewrite Hn. reflexivity.
  Qed.
  Lemma head_read x b body a t : head_text stoi x b -> stod (x_awr x) = Ok a -> stod (x_temp x) = Ok t -> head_of (b ++ body) = Ok (header_of x a t body).
  Proof.
    intros H Ha Ht. destruct H as [x sp d L1 L2 L3 L4 NS HD|x l1 skip l2 jk d H1 H2 HS Hn L1 L2 HD|awr temp l1 skip l2 ls H1 H2 HS Hn Hls HL].
    - unfold head_of. rewrite <- !app_assoc. rewrite starts_app by (try assumption; lia). unfold legacy_header, at_start.
      replace (match x_zaid x ++ x_awr x ++ x_temp x ++ sp ++ d ++ body with [] => true | _ => false end) with false by (destruct (x_zaid x); [discriminate|reflexivity]).
      rewrite t_read_app by assumption. rewrite t_read_app by assumption. rewrite t_read_app by assumption. rewrite Ha, Ht. cbn [bind].
      rewrite t_ignore_app by assumption. rewrite (dated_text_read _ _ _ x d body HD eq_refl). reflexivity.
    - unfold head_of. replace ((50 :: 46 :: l1 ++ [10] ++ l2 ++ [10] ++ x_zaid x ++ jk ++ d) ++ body) with (50 :: 46 :: l1 ++ [10] ++ l2 ++ [10] ++ (x_zaid x ++ jk ++ d ++ body)) by (repeat first [rewrite <- app_assoc | progress (cbn [app])]; reflexivity).
      cbn [starts_modern]. unfold at_start. rewrite (modern_lines _ _ _ _ _ _ _ _ _ H1 H2 HS Hn Ha Ht). cbn [Z.eqb Pos.eqb]. rewrite t_read_app by assumption.
      rewrite t_ignore_app by assumption. rewrite (dated_text_read _ _ _ x d body HD eq_refl). reflexivity.
    - unfold head_of. replace ((50 :: 46 :: l1 ++ [10] ++ l2 ++ [10] ++ concat ls) ++ body) with (50 :: 46 :: l1 ++ [10] ++ l2 ++ [10] ++ (concat ls ++ body)) by (repeat first [rewrite <- app_assoc | progress (cbn [app])]; reflexivity).
      cbn [starts_modern]. unfold at_start. cbn [x_awr x_temp blank_texts] in Ha, Ht. rewrite (modern_lines _ _ _ _ _ _ _ _ _ H1 H2 HS Hn Ha Ht).
      replace (Z.of_nat (length ls) =? 2) with false by lia. rewrite Nat2Z.id. rewrite skip_lines_app by assumption. reflexivity.
  Qed.

  (** ** whole files *)
  Variable junk : nat -> Z * Z.
  Definition file_with (x : texts) (a t : Z) (izaw : list (Z * Z)) (nxs jxs xss : list Z) : acefile :=
    mkFile (mkZaid (nth 1 nxs 0 / 1000) (nth 1 nxs 0 mod 1000)) (to_kelvin_bits t) a (0 <? nth 1 jxs 0) (x_zaid x) (x_date x) (x_comment x) (x_mat x) izaw nxs jxs xss.
  Lemma zaid_small n : 0 <= n < 256000 -> mkZaid ((n mod 2 ^ 32 / 1000) mod 256) (wrap32 (n mod 2 ^ 32 - (n mod 2 ^ 32 / 1000) mod 256 * 1000)) = mkZaid (n / 1000) (n mod 1000).
  Proof.
    intro H. rewrite (Z.mod_small n) by lia. assert (0 <= n / 1000 < 256) by (split; [apply Z.div_pos; lia|apply Z.div_lt_upper_bound; lia]). rewrite (Z.mod_small (n / 1000)) by lia.
    f_equal. unfold wrap32. replace (n - n / 1000 * 1000) with (n mod 1000) by (rewrite Z.mod_eq by lia; lia). apply Z.mod_small. pose proof (Z.mod_pos_bound n 1000). lia.
  Qed.
  Lemma arrays_gap izaw nxs jxs b t : arrays strtod izaw nxs jxs b -> b ++ t <> [].
  Proof.
    intros (L1 & _ & _ & t1 & t2 & t3 & W1 & _ & _ & ->) E. destruct W1 as [|v vs g w x [Hg _] _ _]; [discriminate|]. destruct g; [contradiction|discriminate].
  Qed.
  Lemma read_file x hb b a t izaw nxs jxs rest : head_text stoi x hb -> stod (x_awr x) = Ok a -> stod (x_temp x) = Ok t -> arrays strtod izaw nxs jxs b -> ends rest -> 0 <= nth 1 nxs 0 < 256000 ->
    read_ascii strtod stod stoi junk (hb ++ b ++ rest) =
      if nth 0 nxs 0 <? 0 then Throw
      else let xss := t_xss strtod (Z.to_nat (nth 0 nxs 0)) (st rest) in
           if negb (sizeZ xss =? nth 0 nxs 0) then Throw else Ok (file_with x a t izaw nxs jxs xss).
  Proof.
    intros HH Ha Ht HA HE HZ. unfold read_ascii. fold (head_of (hb ++ b ++ rest)). rewrite (head_read x hb (b ++ rest) a t HH Ha Ht). cbn [bind].
    rewrite (body_text strtod junk (header_of x a t (b ++ rest)) izaw nxs jxs b rest HA HE).
    - cbv zeta. cbn [header_of h_temp h_awr h_zaid_txt h_date h_comment h_mat]. rewrite (zaid_small _ HZ). reflexivity.
    - cbn [header_of h_rest]. unfold st. destruct (b ++ rest) eqn:E; [exfalso; exact (arrays_gap _ _ _ _ _ HA E)|reflexivity].
  Qed.
  Lemma read_complete x hb b a t izaw nxs jxs xss xt rest : head_text stoi x hb -> stod (x_awr x) = Ok a -> stod (x_temp x) = Ok t -> arrays strtod izaw nxs jxs b -> 0 <= nth 1 nxs 0 < 256000 ->
    written (double_text strtod) xss xt -> nth 0 nxs 0 = sizeZ xss -> ends rest ->
    read_ascii strtod stod stoi junk (hb ++ b ++ xt ++ rest) = Ok (file_with x a t izaw nxs jxs xss).
  Proof.
    intros HH Ha Ht HA HZ HX HN HE. rewrite (read_file x hb b a t izaw nxs jxs (xt ++ rest) HH Ha Ht HA (written_ends _ _ _ _ HX HE) HZ). rewrite HN.
    replace (sizeZ xss <? 0) with false by (unfold sizeZ; lia). unfold sizeZ at 1. rewrite Nat2Z.id. cbv zeta.
    pose proof (xss_text strtod xss xt HX 0 rest HE) as E. rewrite Nat.add_0_r in E. cbn [t_xss] in E. rewrite app_nil_r in E. rewrite E. rewrite Z.eqb_refl. reflexivity.
  Qed.
  (** fewer numbers than NXS(1), and then the end of the file *)
  Lemma read_short x hb b a t izaw nxs jxs xss xt rest : head_text stoi x hb -> stod (x_awr x) = Ok a -> stod (x_temp x) = Ok t -> arrays strtod izaw nxs jxs b -> 0 <= nth 1 nxs 0 < 256000 ->
    written (double_text strtod) xss xt -> Forall white rest -> sizeZ xss < nth 0 nxs 0 ->
    read_ascii strtod stod stoi junk (hb ++ b ++ xt ++ rest) =
      match rest with [] => Throw | _ => if sizeZ xss + 1 =? nth 0 nxs 0 then Ok (file_with x a t izaw nxs jxs (xss ++ [0])) else Throw end.
  Proof.
    intros HH Ha Ht HA HZ HX HW HN. assert (HE : ends rest) by (destruct rest; [exact I|inversion HW; assumption]).
    rewrite (read_file x hb b a t izaw nxs jxs (xt ++ rest) HH Ha Ht HA (written_ends _ _ _ _ HX HE) HZ). unfold sizeZ in *.
    replace (nth 0 nxs 0 <? 0) with false by lia. cbv zeta.
    set (m := Z.to_nat (nth 0 nxs 0 - Z.of_nat (length xss))). replace (Z.to_nat (nth 0 nxs 0)) with (length xss + m)%nat by lia.
    rewrite (xss_text strtod xss xt HX m rest HE). destruct rest as [|c rest].
    - rewrite xss_nothing, app_nil_r. replace (Z.of_nat (length xss) =? nth 0 nxs 0) with false by lia. reflexivity.
    - destruct m as [|m'] eqn:Em; [lia|]. rewrite (xss_blank strtod m' (c :: rest)) by (split; [discriminate|assumption]). rewrite app_length. cbn [length].
      replace (Z.of_nat (length xss + 1)) with (Z.of_nat (length xss) + 1) by lia. destruct (Z.of_nat (length xss) + 1 =? nth 0 nxs 0); reflexivity.
  Qed.
  Lemma read_garbage x hb b a t izaw nxs jxs xss xt g c rest : strtod [] = (0, true) -> head_text stoi x hb -> stod (x_awr x) = Ok a -> stod (x_temp x) = Ok t -> arrays strtod izaw nxs jxs b -> 0 <= nth 1 nxs 0 < 256000 ->
    written (double_text strtod) xss xt -> gap g -> no_number c -> sizeZ xss < nth 0 nxs 0 ->
    read_ascii strtod stod stoi junk (hb ++ b ++ xt ++ g ++ c :: rest) = Ok (file_with x a t izaw nxs jxs (xss ++ repeat 0 (Z.to_nat (nth 0 nxs 0 - sizeZ xss)))).
  Proof.
    intros H0 HH Ha Ht HA HZ HX HG HC HN. assert (HE : ends (g ++ c :: rest)) by (apply gap_ends; assumption).
    rewrite (read_file x hb b a t izaw nxs jxs (xt ++ g ++ c :: rest) HH Ha Ht HA (written_ends _ _ _ _ HX HE) HZ). unfold sizeZ in *.
    replace (nth 0 nxs 0 <? 0) with false by lia. cbv zeta.
    set (m := Z.to_nat (nth 0 nxs 0 - Z.of_nat (length xss))). replace (Z.to_nat (nth 0 nxs 0)) with (length xss + m)%nat by lia.
    rewrite (xss_text strtod xss xt HX m _ HE). rewrite xss_garbage by assumption. rewrite app_length, repeat_length. replace (Z.of_nat (length xss + m) =? nth 0 nxs 0) with true by lia. reflexivity.
  Qed.
End Text.
