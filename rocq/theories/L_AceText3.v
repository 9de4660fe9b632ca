(** * Lemmas: glued numbers, files that are no ACE files, and what every accepted ASCII file yields *)
From Coq Require Import Lia List ZArith Bool ZifyBool ZifyNat.
From Verif Require Import Base M_Grid M_Ident M_AceBin S_AceBin M_AceText S_AceText L_AceText L_AceText2 L_AceBin L_Legendre.
From Flocq Require Import Core IEEE754.BinarySingleNaN IEEE754.Binary IEEE754.Bits.
Import ListNotations.
Local Open Scope Z_scope.

Definition mantissa_text (w : list Z) : Prop :=
  exists sg ip fp, sign_opt sg /\ Forall digit ip /\ (fp = [] \/ exists f, fp = 46 :: f /\ Forall digit f) /\ (exists b, In b (ip ++ fp) /\ digit b) /\ w = sg ++ ip ++ fp.
Definition exponent_text (w : list Z) : Prop := exists s d, (s = 43 \/ s = 45) /\ d <> [] /\ Forall digit d /\ w = s :: d.
Lemma gather_sign m dec sci s t : s = 43 \/ s = 45 -> gather m dec sci (s :: t) = ([], s :: t).
Proof. intros [->| ->]; cbn [gather is_digit]; destruct dec, sci, m; reflexivity. Qed.
Lemma mantissa_gather w s t : mantissa_text w -> s = 43 \/ s = 45 ->
  exists sg tx, w = sg ++ tx /\ take_sign (w ++ s :: t) = (sg, tx ++ s :: t) /\ gather false false false (tx ++ s :: t) = (tx, s :: t).
Proof.
  intros (sg & ip & fp & Hs & Hi & Hf & (b & Hb & Hbd) & ->) Ht. exists sg, (ip ++ fp).
  split; [reflexivity|]. split.
  - rewrite <- app_assoc. apply take_sign_app; [exact Hs|]. destruct ip as [|d ip']; [|inversion Hi; subst; cbn; apply digit_not_sign; assumption].
    cbn [app] in *. destruct Hf as [->|(f & -> & _)]; [destruct Hb|]. reflexivity.
  - rewrite <- !app_assoc. rewrite gather_digits by assumption. destruct Hf as [->|(f & -> & Hfd)].
    + cbn [app]. rewrite app_nil_r in Hb. destruct ip as [|d ip']; [destruct Hb|]. rewrite gather_sign by assumption. reflexivity.
    + cbn [app]. assert (G : forall m, gather m false false (46 :: f ++ s :: t) = (46 :: f, s :: t)).
      { intros m. cbn [gather]. replace (is_digit 46) with false by reflexivity. cbn [Z.eqb Pos.eqb andb negb]. rewrite gather_digits by assumption. rewrite gather_sign by assumption. rewrite app_nil_r. reflexivity. }
      rewrite G. reflexivity.
Qed.
Lemma exponent_float w : exponent_text w -> float_text w.
Proof.
  intros (s & d & Hs & Hn & Hd & ->). exists [s], d, [], []. split; [destruct Hs as [->| ->]; [right; left|right; right]; reflexivity|]. split; [exact Hd|]. split; [left; reflexivity|].
  split; [destruct d as [|d0 d']; [contradiction|]; exists d0; split; [left; reflexivity|inversion Hd; assumption]|]. split; [left; reflexivity|]. rewrite !app_nil_r. reflexivity.
Qed.
Lemma mantissa_float w : mantissa_text w -> float_text w.
Proof. intros (sg & ip & fp & Hs & Hi & Hf & Hb & ->). exists sg, ip, fp, []. repeat (split; [assumption|]). split; [left; reflexivity|]. rewrite app_nil_r. reflexivity. Qed.

Section Text.
  Variable strtod : list Z -> Z * bool.
  Lemma xss_firstn vs x : written (double_text strtod) vs x -> forall k t, ends t -> (k <= length vs)%nat -> t_xss strtod k (st (x ++ t)) = firstn k vs.
  Proof.
    induction 1 as [|v vs g w x Hg Hw H IH]; intros k t Ht Hk; cbn [length] in Hk; [replace k with O by lia; reflexivity|]. destruct k as [|k]; [reflexivity|]. cbn [t_xss firstn]. rewrite <- !app_assoc.
    replace (ts_eof (st (g ++ w ++ x ++ t))) with false by (destruct Hg as [Hg _]; destruct g; [contradiction|reflexivity]).
    rewrite (extract_double strtod 0 g w v (x ++ t)); [|assumption|assumption|eapply written_ends; eassumption]. rewrite IH by (try assumption; lia). reflexivity.
  Qed.
  (** "m" directly followed by a signed exponent is read as two numbers *)
  Lemma xss_glued k g m e vm ve t : gap g -> mantissa_text m -> strtod m = (vm, false) -> exponent_text e -> strtod e = (ve, false) -> ends t ->
    t_xss strtod (S k) (st (g ++ m ++ e ++ t)) = vm :: match k with O => [] | S k' => ve :: t_xss strtod k' (st t) end.
  Proof.
    intros Hg Hm Vm He Ve Ht. cbn [t_xss]. replace (ts_eof (st (g ++ m ++ e ++ t))) with false by (destruct Hg as [Hg _]; destruct g; [contradiction|reflexivity]).
    destruct (float_text_head m (mantissa_float m Hm)) as [Nm Hh]. pose proof (exponent_float e He) as Hef. destruct He as (s & d & Hs & Hn & Hd & E).
    rewrite (extract_field (scan_double strtod) 0 g m vm (e ++ t) Hg Nm Hh).
    2: { unfold scan_double. subst e. cbn [app]. destruct (mantissa_gather m s (d ++ t) Hm Hs) as (sg & tx & Em & T1 & T2). rewrite T1, T2. rewrite <- Em, Vm. reflexivity. }
    f_equal. destruct k as [|k']; [reflexivity|]. cbn [t_xss]. assert (NE : e ++ t <> []) by (subst e; discriminate).
    replace (ts_eof (st (e ++ t))) with false by (destruct (e ++ t); [contradiction|reflexivity]). unfold t_extract. rewrite st_good by assumption. cbn [st ts_bytes].
    destruct (float_text_head e Hef) as [_ He]. destruct (e ++ t) as [|c q] eqn:Eet; [contradiction|].
    assert (Hc : is_space c = false) by (subst e; cbn [app] in Eet; inversion Eet; subst; exact He). cbn [skip_space]. rewrite Hc. rewrite <- Eet.
    rewrite (scan_double_text strtod e ve t); [reflexivity|split; assumption|exact Ht].
  Qed.

  Variable stod : list Z -> res Z.
  Variable stoi : list Z -> res Z.
  Variable junk : nat -> Z * Z.
  Lemma firstn_app_le {A} (l1 l2 : list A) k : firstn (length l1 + k) (l1 ++ l2) = l1 ++ firstn k l2.
  Proof. rewrite firstn_app. rewrite firstn_all2 by lia. f_equal. f_equal. lia. Qed.
  Lemma read_glued x hb b a t izaw nxs jxs pre pt g m e vm ve post qt rest : head_text stoi x hb -> stod (x_awr x) = Ok a -> stod (x_temp x) = Ok t -> arrays strtod izaw nxs jxs b -> 0 <= nth 1 nxs 0 < 256000 ->
    written (double_text strtod) pre pt -> gap g -> mantissa_text m -> strtod m = (vm, false) -> exponent_text e -> strtod e = (ve, false) -> written (double_text strtod) post qt -> ends rest ->
    nth 0 nxs 0 = sizeZ pre + 1 + sizeZ post ->
    read_ascii strtod stod stoi junk (hb ++ b ++ pt ++ (g ++ m ++ e) ++ qt ++ rest) =
      Ok (file_with x a t izaw nxs jxs (pre ++ [vm] ++ firstn (length post) (ve :: post))).
  Proof.
    intros HH Ha Ht HA HZ HP HG Hm Vm He Ve HQ HE HN.
    assert (E1 : ends (qt ++ rest)) by (eapply written_ends; eassumption).
    assert (E2 : ends ((g ++ m ++ e) ++ qt ++ rest)) by (rewrite <- app_assoc; apply gap_ends; assumption).
    rewrite (read_file strtod stod stoi junk x hb b a t izaw nxs jxs (pt ++ (g ++ m ++ e) ++ qt ++ rest) HH Ha Ht HA (written_ends _ _ _ _ HP E2) HZ). unfold sizeZ in *.
    replace (nth 0 nxs 0 <? 0) with false by lia. cbv zeta. replace (Z.to_nat (nth 0 nxs 0)) with (length pre + S (length post))%nat by lia.
    rewrite (xss_text strtod pre pt HP _ _ E2). rewrite <- !app_assoc. rewrite (xss_glued _ g m e vm ve (qt ++ rest)) by assumption.
    assert (X : (match length post with O => [] | S k' => ve :: t_xss strtod k' (st (qt ++ rest)) end) = firstn (length post) (ve :: post)).
    { destruct post as [|p post]; [reflexivity|]. cbn [length firstn]. f_equal. rewrite (xss_firstn _ _ HQ) by (try assumption; cbn [length]; lia). reflexivity. }
    rewrite X. cbn [app].
    rewrite app_length. cbn [length]. rewrite firstn_length. cbn [length]. replace (Z.of_nat (length pre + S (Nat.min (length post) (S (length post)))) =? nth 0 nxs 0) with true by lia. reflexivity.
  Qed.

  (** ** a body that starts with no number *)
  Lemma extract_failed scan old r : t_extract scan old (mkTs r false true) = (old, mkTs r false true).
  Proof. reflexivity. Qed.
  Lemma izaw_failed k r : exists l, t_izaw strtod k junk (mkTs r false true) = (l, mkTs r false true) /\ length l = k.
  Proof.
    induction k as [|k IH]; [exists []; split; reflexivity|]. cbn [t_izaw]. rewrite !extract_failed. destruct IH as (l & -> & L). eexists. split; [reflexivity|]. cbn [length]. f_equal. exact L.
  Qed.
  Lemma ints_failed k r : t_ints k (mkTs r false true) = (repeat 0 k, mkTs r false true).
  Proof. induction k as [|k IH]; [reflexivity|]. cbn [t_ints]. rewrite extract_failed, IH. reflexivity. Qed.
  Lemma read_no_numbers x hb a t g c rest : head_text stoi x hb -> stod (x_awr x) = Ok a -> stod (x_temp x) = Ok t -> Forall white g -> no_number c ->
    exists izaw, read_ascii strtod stod stoi junk (hb ++ g ++ c :: rest) = Ok (file_with x a t izaw (repeat 0 16) (repeat 0 32) []).
  Proof.
    intros HH Ha Ht HG (Hw & Hd & H1 & H2 & H3). unfold read_ascii. fold (head_of stod stoi (hb ++ g ++ c :: rest)). rewrite (head_read strtod stod stoi x hb _ a t HH Ha Ht). cbn [bind].
    unfold read_body. cbn [header_of h_rest]. cbn [t_izaw].
    assert (E : forall old, t_extract scan_int old (mkTs (g ++ c :: rest) false false) = (0, mkTs (c :: rest) false true)).
    { intro old. unfold t_extract. cbn [ts_good ts_eof ts_fail negb andb ts_bytes]. rewrite skip_space_app by assumption. cbn [skip_space].
      replace (is_space c) with false by (symmetry; apply not_true_is_false; rewrite <- white_space; exact Hw). unfold scan_int. cbn [take_sign]. replace (is_sign c) with false by (unfold is_sign; lia).
      cbn [span_digits]. replace (is_digit c) with false by (symmetry; apply not_true_is_false; rewrite <- digit_digit; exact Hd). reflexivity. }
    rewrite E. rewrite extract_failed. destruct (izaw_failed 15 (c :: rest)) as (l & El & _). cbn [t_izaw] in El. rewrite El. rewrite !ints_failed. eexists. reflexivity.
  Qed.

  (** ** what every accepted file yields *)
  Hypothesis strtod_range : forall w, is_double (fst (strtod w)).
  Hypothesis stod_range : forall w v, stod w = Ok v -> is_double v.
  Hypothesis junk_range : forall k, is_int32 (fst (junk k)) /\ is_double (snd (junk k)).
  Lemma scan_int_range bs : is_int32 (fst (fst (scan_int bs))).
  Proof.
    unfold scan_int. destruct (take_sign bs) as [sg r]. destruct (span_digits r) as [ds q]. destruct ds; [cbn; unfold is_int32; lia|].
    set (v := match sg with [45] => _ | _ => _ end). clearbody v. destruct (v <? - 2 ^ 31) eqn:E1; [cbn; unfold is_int32; lia|]. destruct (2 ^ 31 <=? v) eqn:E2; cbn; unfold is_int32; lia.
  Qed.
  Lemma scan_double_range bs : is_double (fst (fst (scan_double strtod bs))).
  Proof. unfold scan_double. destruct (take_sign bs) as [sg r]. destruct (gather false false false r) as [t q]. pose proof (strtod_range (sg ++ t)) as H. destruct (strtod (sg ++ t)). exact H. Qed.
  Lemma extract_range (P : Z -> Prop) scan old s : (forall bs, P (fst (fst (scan bs)))) -> P old -> P (fst (t_extract scan old s)).
  Proof.
    intros H1 H2. unfold t_extract. destruct (ts_good s); [|exact H2]. destruct (skip_space (ts_bytes s)) as [|b r]; [exact H2|]. pose proof (H1 (b :: r)) as H. destruct (scan (b :: r)) as [[v bad] q]. exact H.
  Qed.
  Lemma izaw_range k : forall s, length (fst (t_izaw strtod k junk s)) = k /\ Forall (fun p => is_int32 (fst p) /\ is_double (snd p)) (fst (t_izaw strtod k junk s)).
  Proof.
    induction k as [|k IH]; intro s; [split; [reflexivity|constructor]|]. cbn [t_izaw].
    pose proof (extract_range is_int32 scan_int (fst (junk (S k))) s scan_int_range (proj1 (junk_range _))) as R1. destruct (t_extract scan_int _ s) as [z s1].
    pose proof (extract_range is_double (scan_double strtod) (snd (junk (S k))) s1 scan_double_range (proj2 (junk_range _))) as R2. destruct (t_extract (scan_double strtod) _ s1) as [a s2].
    specialize (IH s2). destruct (t_izaw strtod k junk s2) as [r s3]. cbn [fst] in *. destruct IH as [L F]. split; [cbn; lia|]. constructor; [split; assumption|exact F].
  Qed.
  Lemma ints_range k : forall s, length (fst (t_ints k s)) = k /\ Forall is_int32 (fst (t_ints k s)).
  Proof.
    induction k as [|k IH]; intro s; [split; [reflexivity|constructor]|]. cbn [t_ints].
    pose proof (extract_range is_int32 scan_int 0 s scan_int_range ltac:(unfold is_int32; lia)) as R1. destruct (t_extract scan_int 0 s) as [z s1].
    specialize (IH s1). destruct (t_ints k s1) as [r s3]. cbn [fst] in *. destruct IH as [L F]. split; [cbn; lia|]. constructor; assumption.
  Qed.
  Lemma xss_range n : forall s, Forall is_double (t_xss strtod n s).
  Proof.
    induction n as [|n IH]; intro s; [constructor|]. cbn [t_xss]. destruct (ts_eof s); [constructor|].
    pose proof (extract_range is_double (scan_double strtod) 0 s scan_double_range ltac:(unfold is_double; lia)) as R1. destruct (t_extract (scan_double strtod) 0 s) as [z s1]. constructor; [exact R1|apply IH].
  Qed.
  Lemma t_read_length n old s : length old = n -> length (fst (t_read n old s)) = n.
  Proof.
    intro H. unfold t_read. destruct (ts_good s); [|exact H]. destruct (n <=? length (ts_bytes s))%nat eqn:E; cbn [fst]; [rewrite firstn_length; lia|]. rewrite app_length, skipn_length. lia.
  Qed.
  Lemma times_range a b : is_double (times a b).
  Proof. apply L_AceBin.times_double. Qed.
  Definition good_header (h : header) : Prop := length (h_zaid_txt h) = 10%nat /\ length (h_date h) = 10%nat /\ length (h_comment h) = 70%nat /\ length (h_mat h) = 10%nat /\ is_double (h_temp h) /\ is_double (h_awr h).
  Lemma dated_good a t z s : length z = 10%nat -> is_double t -> is_double a -> good_header (dated a t z s).
  Proof.
    intros Hz Ht Ha. unfold dated. pose proof (t_read_length 10 (repeat 32 10) s eq_refl) as L1. destruct (t_read 10 _ s) as [d s1].
    pose proof (t_read_length 70 (repeat 32 70) (t_newline (t_newline s1)) eq_refl) as L2. destruct (t_read 70 _ _) as [c s2].
    pose proof (t_read_length 10 (repeat 32 10) s2 eq_refl) as L3. destruct (t_read 10 _ s2) as [m s3]. repeat split; assumption || (cbn; lia) || (destruct Ht, Ha; assumption).
  Qed.
  Lemma bind_inv {A B} (m : res A) (k : A -> res B) v : bind m k = Ok v -> exists x, m = Ok x /\ k x = Ok v.
  Proof. destruct m; cbn; intro H; try discriminate. eexists; split; [reflexivity|exact H]. Qed.
  Lemma header_good bytes h : head_of stod stoi bytes = Ok h -> good_header h.
  Proof.
    unfold head_of. destruct (starts_modern bytes).
    - unfold modern_header. destruct (t_getline [] (at_start bytes)) as [l1 s1]. destruct (t_getline l1 s1) as [l2 s2]. intro H.
      apply bind_inv in H as (w0 & _ & H). apply bind_inv in H as (a & Ha & H). apply bind_inv in H as (w1 & _ & H). apply bind_inv in H as (t & _ & H).
      apply bind_inv in H as (w3 & _ & H). apply bind_inv in H as (n & _ & H). apply stod_range in Ha. destruct (n =? 2).
      + pose proof (t_read_length 10 (repeat 32 10) s2 eq_refl) as L1. destruct (t_read 10 _ s2) as [d s3]. inversion H; subst. apply dated_good; [exact L1|apply times_range|exact Ha].
      + inversion H; subst. unfold good_header. cbn [h_zaid_txt h_date h_comment h_mat h_temp h_awr]. split; [reflexivity|]. split; [reflexivity|]. split; [reflexivity|]. split; [reflexivity|]. split; [apply times_range|exact Ha].
    - unfold legacy_header. pose proof (t_read_length 10 (repeat 32 10) (at_start bytes) eq_refl) as L1. destruct (t_read 10 _ _) as [z s1].
      destruct (t_read 12 _ s1) as [aw s2]. destruct (t_read 12 _ s2) as [te s3]. intro H. apply bind_inv in H as (a & Ha & H). apply bind_inv in H as (t & _ & H). apply stod_range in Ha.
      inversion H; subst. apply dated_good; [exact L1|apply times_range|exact Ha].
  Qed.
  Lemma read_accepted bytes f : read_ascii strtod stod stoi junk bytes = Ok f -> 0 <= nth 1 (f_nxs f) 0 < 256000 -> well_formed f.
  Proof.
    unfold read_ascii. fold (head_of stod stoi bytes). intro H. apply bind_inv in H as (h & Hh & H). apply header_good in Hh as (G1 & G2 & G3 & G4 & G5 & G6). unfold read_body in H.
    pose proof (izaw_range 16 (h_rest h)) as [L1 F1]. destruct (t_izaw strtod 16 junk (h_rest h)) as [izaw s1]. pose proof (ints_range 16 s1) as [L2 F2]. destruct (t_ints 16 s1) as [nxs s2].
    pose proof (ints_range 32 s2) as [L3 F3]. destruct (t_ints 32 s2) as [jxs s3]. cbn [fst] in *. destruct (nth 0 nxs 0 <? 0); [discriminate|]. cbv zeta in H.
    pose proof (xss_range (Z.to_nat (nth 0 nxs 0)) s3) as F4. destruct (sizeZ (t_xss strtod (Z.to_nat (nth 0 nxs 0)) s3) =? nth 0 nxs 0) eqn:E; cbn [negb] in H; [|discriminate].
    set (xss := t_xss strtod _ s3) in *. clearbody xss. intro HZ. apply L_Legendre.Ok_eq in H. subst f. cbn [f_nxs] in HZ. unfold well_formed. cbn [f_zaid f_temperature f_awr f_fissile f_zaid_txt f_date f_comment f_mat f_izaw f_nxs f_jxs f_xss].
    repeat (split; [assumption|]). split; [unfold sizeZ in E; lia|]. split; [|reflexivity]. exists (nth 1 nxs 0 / 1000). rewrite (zaid_small _ HZ).
    split; [split; [apply Z.div_pos; lia|apply Z.div_lt_upper_bound; lia]|]. split; [exact HZ|]. split; reflexivity.
  Qed.
End Text.
