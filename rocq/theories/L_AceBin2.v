(** * Reading arbitrary bytes: termination, safety of fitting records, and what goes wrong otherwise *)
From Verif Require Import Base M_Grid M_Ident M_AceBin S_AceBin L_AceBin.
From Coq Require Import ZArith List Lia. Import ListNotations.
Local Open Scope list_scope.
Local Open Scope Z_scope.

Lemma skipn_skipn_ {A} m n (l : list A) : skipn m (skipn n l) = skipn (n + m) l.
Proof. revert l. induction n as [|n IH]; intro l; [reflexivity|]. destruct l; [rewrite !skipn_nil; reflexivity|]. cbn [skipn Nat.add]. apply IH. Qed.
(** a read advances by exactly [n] bytes if there are that many; otherwise it leaves the stream at its end *)
Definition adv (n : nat) (s s' : istream) : Prop :=
  if (in_eof s || (length (in_bytes s) <? n)%nat)%bool then in_eof s' = true else in_eof s' = false /\ in_bytes s' = skipn n (in_bytes s).
Lemma read_adv n old s : adv n s (snd (read n old s)).
Proof.
  unfold read, adv. destruct s as [b [|]]; cbn [in_eof in_bytes snd orb]; [reflexivity|].
  rewrite Nat.leb_antisym. destruct (length b <? n)%nat; cbn; auto.
Qed.
Lemma adv_trans n m s s1 s2 : adv n s s1 -> adv m s1 s2 -> adv (n + m) s s2.
Proof.
  unfold adv. intros A B. destruct (in_eof s); cbn [orb] in *; [rewrite A in B; exact B|].
  destruct (Nat.ltb_spec (length (in_bytes s)) n).
  - rewrite A in B. cbn [orb] in B. replace (length (in_bytes s) <? n + m)%nat with true by (symmetry; apply Nat.ltb_lt; lia). exact B.
  - destruct A as [A1 A2]. rewrite A1, A2, skipn_length, skipn_skipn_ in B. cbn [orb] in B.
    destruct (Nat.ltb_spec (length (in_bytes s) - n) m); destruct (Nat.ltb_spec (length (in_bytes s)) (n + m)); auto; lia.
Qed.
Lemma adv_0 s : adv 0 s s.
Proof. unfold adv. destruct s as [b [|]]; cbn; auto. Qed.
Lemma read_izaw_adv k junk s : adv (12 * k) s (snd (read_izaw k junk s)).
Proof.
  revert s. induction k as [|k IH]; intro s; [apply adv_0|].
  cbn [read_izaw]. pose proof (read_adv 4 (firstn 4 junk) s) as A1. destruct (read 4 _ s) as [z s1]. cbn [snd] in A1.
  pose proof (read_adv 8 junk s1) as A2. destruct (read 8 junk s1) as [a s2]. cbn [snd] in A2.
  specialize (IH s2). destruct (read_izaw k junk s2) as [r s3]. cbn [snd] in *.
  replace (12 * S k)%nat with (4 + (8 + 12 * k))%nat by lia. eauto using adv_trans.
Qed.
Lemma read_ints_adv k s : adv (4 * k) s (snd (read_ints k s)).
Proof.
  revert s. induction k as [|k IH]; intro s; [apply adv_0|].
  cbn [read_ints]. pose proof (read_adv 4 [0; 0; 0; 0] s) as A1. destruct (read 4 _ s) as [z s1]. cbn [snd] in A1.
  specialize (IH s1). destruct (read_ints k s1) as [r s3]. cbn [snd] in *.
  replace (4 * S k)%nat with (4 + 4 * k)%nat by lia. eauto using adv_trans.
Qed.
Lemma ignore_adv n s : adv n s (ignore n s). Proof. apply read_adv. Qed.

Lemma adv_eof n s s' : adv n s s' -> in_eof s = true -> in_eof s' = true.
Proof. unfold adv. intros A E. rewrite E in A. exact A. Qed.
Lemma adv_ok n s s' : adv n s s' -> in_eof s' = false -> in_eof s = false /\ in_bytes s' = skipn n (in_bytes s) /\ (n <= length (in_bytes s))%nat.
Proof. unfold adv. intros A E. destruct (in_eof s); cbn [orb] in A; [congruence|]. destruct (Nat.ltb_spec (length (in_bytes s)) n); [congruence|]. tauto. Qed.

(** the header: the declared length is the four bytes at offset 312, and the records start at offset 508 *)
Definition declared (bytes : list Z) : Z := int32_of (firstn 4 (skipn 312 bytes)).
Definition header_size : nat := 508.

Lemma read_binary_records junk bytes : exists s n mk,
  read_binary junk bytes = (if n <? 0 then Throw else bind (read_records (S (length bytes)) s (firstn 4 junk) 0 n (repeat 0 (Z.to_nat (8 * n)))) (fun buf => Ok (mk buf))) /\
  (forall buf, f_xss (mk buf) = words8 (Z.to_nat n) buf) /\
  (if (length bytes <? header_size)%nat then in_eof s = true else in_eof s = false /\ in_bytes s = skipn header_size bytes /\ n = declared bytes).
Proof.
  unfold read_binary. set (s0 := mkIn bytes false).
  pose proof (ignore_adv 4 s0) as A0. set (s1 := ignore 4 s0) in *.
  pose proof (read_adv 10 (repeat 32 10) s1) as A1. destruct (read 10 (repeat 32 10) s1) as [txt s2]. cbn [snd] in A1.
  pose proof (read_adv 8 (le 8 0) s2) as A2. destruct (read 8 (le 8 0) s2) as [awr s3]. cbn [snd] in A2.
  pose proof (read_adv 8 (le 8 0) s3) as A3. destruct (read 8 (le 8 0) s3) as [t s4]. cbn [snd] in A3.
  pose proof (read_adv 10 (repeat 32 10) s4) as A4. destruct (read 10 (repeat 32 10) s4) as [date s5]. cbn [snd] in A4.
  pose proof (read_adv 70 (repeat 32 70) s5) as A5. destruct (read 70 (repeat 32 70) s5) as [com s6]. cbn [snd] in A5.
  pose proof (read_adv 10 (repeat 32 10) s6) as A6. destruct (read 10 (repeat 32 10) s6) as [mat s7]. cbn [snd] in A6.
  pose proof (read_izaw_adv 16 junk s7) as A7. destruct (read_izaw 16 junk s7) as [izaw s8]. cbn [snd] in A7.
  assert (B8 : adv 312 s0 s8).
  { change 312%nat with (4 + (10 + (8 + (8 + (10 + (70 + (10 + 12 * 16)))))))%nat. eauto 10 using adv_trans. }
  destruct (read_ints 16 s8) as [nxs s9] eqn:EN. pose proof (read_ints_adv 16 s8) as A8. rewrite EN in A8. cbn [snd] in A8.
  destruct (read_ints 32 s9) as [jxs s10] eqn:EJ. pose proof (read_ints_adv 32 s9) as A9. rewrite EJ in A9. cbn [snd] in A9.
  pose proof (ignore_adv 4 s10) as A10. set (s11 := ignore 4 s10) in *.
  eexists s11, (nth 0 nxs 0), (fun buf => _). split; [|split].
  - cbv zeta. reflexivity.
  - reflexivity.
  - assert (B : adv 508 s0 s11).
    { change 508%nat with (312 + (4 * 16 + (4 * 32 + 4)))%nat. eauto using adv_trans. }
    unfold adv in B. cbn [in_eof in_bytes s0 orb] in B. change header_size with 508%nat. destruct (Nat.ltb_spec (length bytes) 508) as [B4|B4]; [exact B|].
    destruct B as [B1 B2]. repeat split; auto.
    unfold adv in B8. cbn [in_eof in_bytes s0 orb] in B8. replace (length bytes <? 312)%nat with false in B8 by (symmetry; apply Nat.ltb_ge; lia). destruct B8 as [C2 C3].
    cbn [read_ints] in EN. unfold read in EN at 1. rewrite C2 in EN.
    assert (L : (4 <= length (in_bytes s8))%nat) by (rewrite C3, skipn_length; lia).
    apply Nat.leb_le in L. rewrite L in EN. match type of EN with (let '(_, _) := ?x in _) = _ => destruct x as [r1 r2] end.
    injection EN as EN _. subst nxs. cbn [nth]. unfold declared. rewrite C3. reflexivity.
Qed.

(** ** termination *)
Lemma read_records_terminates fuel : forall s rlen i size buf, (length (in_bytes s) < fuel)%nat -> read_records fuel s rlen i size buf <> NoDraw.
Proof.
  induction fuel as [|m IH]; intros s rlen i size buf H; [lia|]. cbn [read_records].
  destruct (in_eof s) eqn:E; [discriminate|]. cbn [orb]. destruct (size <=? i); [discriminate|].
  pose proof (read_adv 4 rlen s) as A. destruct (read 4 rlen s) as [rl s1]. cbn [snd] in A.
  match goal with |- context [if ?b then UB else _] => destruct b end; [discriminate|].
  assert (A2 : adv (Z.to_nat (of_le rl) + 4) s1 (ignore 4 (ignore (Z.to_nat (of_le rl)) s1))) by (eapply adv_trans; apply ignore_adv).
  set (s2 := ignore 4 _) in *.
  assert (A3 : adv (4 + (Z.to_nat (of_le rl) + 4)) s s2) by (eapply adv_trans; eassumption).
  destruct (in_eof s2) eqn:A4.
  - destruct m; cbn [read_records]; rewrite A4; discriminate.
  - destruct (adv_ok _ _ _ A3 A4) as (_ & A5 & A6). apply IH. rewrite A5, skipn_length. lia.
Qed.
Lemma read_binary_terminates junk bytes : read_binary junk bytes <> NoDraw.
Proof.
  destruct (read_binary_records junk bytes) as (s & n & mk & E & _ & S). rewrite E. destruct (n <? 0); [discriminate|].
  match goal with |- bind ?r _ <> _ => assert (R : r <> NoDraw) end.
  { destruct (Nat.ltb_spec (length bytes) header_size) as [L|L]; [cbn [read_records]; rewrite S; discriminate|]. destruct S as (S1 & S2 & S3).
    apply read_records_terminates. rewrite S2, skipn_length. unfold header_size. lia. }
  match goal with |- bind ?r _ <> _ => destruct r end; try discriminate. congruence.
Qed.

(** ** records that fit are read without touching memory outside of XSS, wherever the file ends *)
Definition total (recs : list (list Z)) : Z := Z.of_nat (length (concat recs)).
Lemma firstn_app_le {A} k (a b : list A) : (length a <= k)%nat -> firstn k (a ++ b) = a ++ firstn (k - length a) b.
Proof. intro. rewrite firstn_app, firstn_all2 by lia. reflexivity. Qed.
Lemma read_short n old b : (length b < n)%nat -> snd (read n old (mkIn b false)) = mkIn [] true.
Proof. intro H. unfold read. cbn [in_eof in_bytes]. replace (n <=? length b)%nat with false by (symmetry; apply Nat.leb_gt; exact H). reflexivity. Qed.
Lemma read_fst_short n old b : (length b < n)%nat -> read n old (mkIn b false) = (b ++ skipn (length b) old, mkIn [] true).
Proof. intro H. unfold read. cbn [in_eof in_bytes]. replace (n <=? length b)%nat with false by (symmetry; apply Nat.leb_gt; exact H). reflexivity. Qed.
Lemma ignore_eof n b : ignore n (mkIn b true) = mkIn b true. Proof. reflexivity. Qed.
Lemma read_records_eof fuel b rlen i size buf : read_records fuel (mkIn b true) rlen i size buf = Ok buf.
Proof. destruct fuel; reflexivity. Qed.

Lemma fitting_records recs : forall fuel k rlen i size buf, 0 <= i -> 8 * i + total recs <= 8 * size ->
  Forall (fun d => Z.of_nat (length d) < 2 ^ 32) recs ->
  read_records fuel (mkIn (firstn k (flat_map rec_bytes recs)) false) rlen i size buf <> UB.
Proof.
  unfold total. induction recs as [|d recs IH]; intros fuel k rlen i size buf Hi Hs F.
  - cbn [flat_map]. rewrite firstn_nil. destruct fuel; cbn [read_records in_eof orb]; destruct (Z.leb_spec size i); try discriminate.
    rewrite read_fst_short by (cbn; lia). cbn [in_eof in_bytes].
    match goal with |- context [8 * size <? ?e] => replace (8 * size <? e) with false by (symmetry; apply Z.ltb_ge; change (sizeZ (@nil Z)) with 0; lia) end.
    rewrite !ignore_eof, read_records_eof. discriminate.
  - inversion F as [|? ? Hd F']; subst. cbn [concat] in Hs. rewrite app_length in Hs.
    destruct fuel; cbn [read_records in_eof orb]; destruct (Z.leb_spec size i) as [|Hlt]; try discriminate.
    destruct (Nat.ltb_spec k 4) as [K|K].
    { rewrite read_fst_short by (rewrite firstn_length; lia). cbn [in_eof in_bytes].
      match goal with |- context [8 * size <? ?e] => replace (8 * size <? e) with false by (symmetry; apply Z.ltb_ge; change (sizeZ (@nil Z)) with 0; lia) end.
      rewrite !ignore_eof, read_records_eof. discriminate. }
    cbn [flat_map]. unfold rec_bytes at 1. rewrite <- !app_assoc. rewrite firstn_app_le by (rewrite le_length; lia).
    rewrite read_app by apply le_length. rewrite of_le_le by (change (256 ^ Z.of_nat 4) with (2 ^ 32); lia).
    cbn [in_eof in_bytes]. rewrite Nat2Z.id, le_length.
    match goal with |- context [sizeZ ?x] => assert (LL : (length x <= length d)%nat) by (rewrite firstn_length; lia); set (data := x) in * end.
    replace (8 * size <? 8 * i + sizeZ data) with false by (symmetry; apply Z.ltb_ge; unfold sizeZ; lia).
    destruct (Nat.ltb_spec (k - 4) (length d)) as [K2|K2].
    { unfold ignore at 2. rewrite read_short by (rewrite firstn_length; lia). rewrite ignore_eof, read_records_eof. discriminate. }
    rewrite firstn_app_le by lia. rewrite ignore_app by reflexivity.
    destruct (Nat.ltb_spec (k - 4 - length d) 4) as [K3|K3].
    { unfold ignore. rewrite read_short by (rewrite firstn_length; lia). rewrite read_records_eof. discriminate. }
    rewrite firstn_app_le by (rewrite le_length; lia). rewrite ignore_app by apply le_length.
    apply IH; auto.
    + assert (0 <= Z.of_nat (length d) / 8) by (apply Z.div_pos; lia). lia.
    + assert (8 * (Z.of_nat (length d) / 8) <= Z.of_nat (length d)) by (apply Z.mul_div_le; lia). lia.
Qed.

Lemma declared_app header rest : length header = header_size -> declared (header ++ rest) = declared header.
Proof.
  intro H. unfold declared. apply (f_equal int32_of). rewrite skipn_app, firstn_app.
  replace (4 - length (skipn 312 header))%nat with 0%nat by (rewrite skipn_length, H; reflexivity). cbn [firstn]. apply app_nil_r.
Qed.

Lemma fitting_file junk header recs k : length header = header_size ->
  total recs <= 8 * declared header -> Forall (fun d => Z.of_nat (length d) < 2 ^ 32) recs ->
  read_binary junk (firstn k (header ++ flat_map rec_bytes recs)) <> UB.
Proof.
  intros H T F. destruct (read_binary_records junk (firstn k (header ++ flat_map rec_bytes recs))) as (s & n & mk & E & _ & S). rewrite E.
  destruct (n <? 0); [discriminate|].
  match goal with |- bind ?r _ <> _ => assert (R : r <> UB) end.
  { destruct (Nat.ltb_spec (length (firstn k (header ++ flat_map rec_bytes recs))) header_size) as [S3|S3]; [destruct s as [sb se]; cbn in S; subst; rewrite read_records_eof; discriminate|].
    destruct S as (S1 & S2 & S4).
    assert (K : (header_size <= k)%nat) by (rewrite firstn_length in S3; lia).
    rewrite firstn_app_le in * by lia.
    assert (N : n = declared header) by (rewrite S4; apply declared_app; exact H).
    rewrite N in *. destruct s as [sb se]. cbn [in_eof in_bytes] in *. subst sb se.
    rewrite skipn_app, <- H, skipn_all, Nat.sub_diag. cbn [skipn app]. apply fitting_records; auto; lia. }
  match goal with |- bind ?r _ <> _ => destruct r end; try discriminate. congruence.
Qed.

(** ** a record longer than the declared XSS writes outside of it *)
Lemma overrun junk header data rest : length header = header_size -> 0 < declared header ->
  8 * declared header < Z.of_nat (length data) -> Z.of_nat (length data) < 2 ^ 32 ->
  read_binary junk (header ++ rec_bytes data ++ rest) = UB.
Proof.
  intros H D1 D2 D3. destruct (read_binary_records junk (header ++ rec_bytes data ++ rest)) as (s & n & mk & E & _ & S). rewrite E.
  replace (length (header ++ rec_bytes data ++ rest) <? header_size)%nat with false in S by (symmetry; apply Nat.ltb_ge; rewrite app_length; lia).
  destruct S as (S1 & S2 & S3). rewrite declared_app in S3 by exact H. subst n.
  replace (declared header <? 0) with false by (symmetry; apply Z.ltb_ge; lia).
  rewrite skipn_app, <- H, skipn_all, Nat.sub_diag in S2. change (in_bytes s = rec_bytes data ++ rest) in S2. destruct s as [sb se]. cbn [in_eof in_bytes] in S1, S2. subst sb se.
  cbn [read_records in_eof orb]. replace (declared header <=? 0) with false by (symmetry; apply Z.leb_gt; lia).
  unfold rec_bytes at 1. rewrite <- !app_assoc. rewrite read_app by apply le_length. rewrite of_le_le by (change (256 ^ Z.of_nat 4) with (2 ^ 32); lia).
  cbn [in_eof in_bytes]. rewrite Nat2Z.id, firstn_app, firstn_all, Nat.sub_diag. cbn [firstn]. rewrite app_nil_r.
  replace (8 * declared header <? 8 * 0 + sizeZ data) with true by (symmetry; apply Z.ltb_lt; unfold sizeZ; lia). reflexivity.
Qed.

(** ** a file cut off after its header (or anywhere in it) is accepted *)
Lemma words8_zeros n : words8 n (repeat 0 (8 * n)) = repeat 0 n.
Proof.
  induction n as [|n IH]; [reflexivity|]. replace (8 * S n)%nat with (8 + 8 * n)%nat by lia. rewrite repeat_app. cbn [repeat app words8 firstn skipn]. rewrite IH. reflexivity.
Qed.
Lemma truncated junk header : (length header <= header_size)%nat -> (length header = header_size -> 0 <= declared header) ->
  exists r, read_binary junk header = r /\ (r = Throw \/ exists a, r = Ok a /\ Forall (fun x => x = 0) (f_xss a)).
Proof.
  intros H P. eexists. split; [reflexivity|]. destruct (read_binary_records junk header) as (s & n & mk & E & X & S). rewrite E.
  destruct (Z.ltb_spec n 0); [left; reflexivity|]. right. exists (mk (repeat 0 (Z.to_nat (8 * n)))). split.
  - destruct (Nat.ltb_spec (length header) header_size).
    + destruct s as [sb se]; cbn in S; subst. rewrite read_records_eof. reflexivity.
    + destruct S as (S1 & S2 & _). rewrite skipn_all2 in S2 by lia. destruct s as [sb se]; cbn in S1, S2; subst.
      cbn [read_records in_eof orb]. destruct (Z.leb_spec n 0); [reflexivity|]. rewrite read_fst_short by (cbn; lia). cbn [in_eof].
      replace (8 * n <? 8 * 0 + sizeZ []) with false by (symmetry; apply Z.ltb_ge; change (sizeZ (@nil Z)) with 0; lia).
      rewrite !ignore_eof, read_records_eof. reflexivity.
  - rewrite X. replace (Z.to_nat (8 * n)) with (8 * Z.to_nat n)%nat by lia. rewrite words8_zeros. apply Forall_forall. intros x Hx. apply repeat_spec in Hx. exact Hx.
Qed.

(** ** what save_binary writes are records that fit *)
Lemma save_records_recs n : forall xs, (length xs <= n)%nat -> exists recs, save_records n xs = flat_map rec_bytes recs /\ total recs = 8 * Z.of_nat (length xs) /\
  Forall (fun d => Z.of_nat (length d) <= 4096) recs.
Proof.
  unfold total. induction n as [|n IH]; intros xs H.
  { destruct xs; [|cbn in H; lia]. exists []. repeat split. constructor. }
  destruct xs as [|x xs]; [exists []; repeat split; constructor|]. set (l := x :: xs) in *. assert (L : (0 < length l)%nat) by (cbn; lia).
  change (save_records (S n) l) with (le 4 ((8 * sizeZ (firstn 512 l)) mod 2 ^ 32) ++ doubles (firstn 512 l) ++ le 4 ((8 * sizeZ (firstn 512 l)) mod 2 ^ 32) ++ save_records n (skipn 512 l)).
  set (now := firstn 512 l). assert (Ln : (length now <= 512)%nat) by (unfold now; rewrite firstn_length; lia).
  assert (LS : length l = (length now + length (skipn 512 l))%nat) by (unfold now; rewrite <- app_length, firstn_skipn; reflexivity).
  assert (0 < length now)%nat by (unfold now; rewrite firstn_length; lia).
  destruct (IH (skipn 512 l)) as (recs & E & T & F); [lia|]. exists (doubles now :: recs). rewrite E. repeat split.
  - cbn [flat_map]. unfold rec_bytes at 2. rewrite <- !app_assoc. rewrite Z.mod_small by (unfold sizeZ; lia).
    replace (Z.of_nat (length (doubles now))) with (8 * sizeZ now) by (rewrite doubles_length; unfold sizeZ; lia). reflexivity.
  - cbn [concat]. rewrite app_length, doubles_length. lia.
  - constructor; [rewrite doubles_length; lia|exact F].
Qed.
Lemma flat_map_length_const {A B} (f : A -> list B) k l : (forall x, length (f x) = k) -> length (flat_map f l) = (length l * k)%nat.
Proof. intro H. induction l; cbn; [reflexivity|]. rewrite app_length, H, IHl. reflexivity. Qed.
Lemma save_header_length a t : well_formed a -> length (save_header a t) = header_size.
Proof.
  intros (T1 & T2 & T3 & T4 & Ht & Ha & I1 & I2 & N1 & N2 & J1 & J2 & _). unfold save_header. rewrite !app_length, !le_length, T1, T2, T3, T4.
  rewrite (flat_map_length_const _ 12), (flat_map_length_const _ 4), (flat_map_length_const _ 4), I1, N1, J1; try reflexivity; intro; rewrite ?app_length, ?le_length; reflexivity.
Qed.
Lemma skipn_app_all {A} n (a b : list A) : length a = n -> skipn n (a ++ b) = b.
Proof. intros <-. rewrite skipn_app, skipn_all, Nat.sub_diag. reflexivity. Qed.
Lemma save_header_declared a t : well_formed a -> declared (save_header a t) = Z.of_nat (length (f_xss a)).
Proof.
  intros (T1 & T2 & T3 & T4 & Ht & Ha & I1 & I2 & N1 & N2 & J1 & J2 & X & NX & _). unfold declared, save_header.
  rewrite (app_assoc (le 4 _)), (app_assoc (_ ++ _)), (app_assoc (_ ++ _)), (app_assoc (_ ++ _)), (app_assoc (_ ++ _)), (app_assoc (_ ++ _)), (app_assoc (_ ++ _)).
  rewrite skipn_app_all.
  2:{ rewrite !app_length, !le_length, T1, T2, T3, T4. rewrite (flat_map_length_const _ 12), I1; [reflexivity|]. intro; rewrite ?app_length, ?le_length; reflexivity. }
  destruct (f_nxs a) as [|n nxs]; [discriminate|]. cbn [flat_map nth] in *. rewrite <- app_assoc.
  rewrite firstn_app, int32_length, Nat.sub_diag, firstn_O, app_nil_r. rewrite <- (int32_length n) at 1. rewrite firstn_all, int32_round; [exact NX|].
  inversion N2; assumption.
Qed.
Lemma truncated_save junk a k : well_formed a -> read_binary junk (firstn k (fst (save_binary a))) <> UB.
Proof.
  intro W. unfold save_binary. cbn [fst]. destruct (save_records_recs _ (f_xss a) (le_n _)) as (recs & E & T & F). rewrite E.
  apply fitting_file; [apply save_header_length; exact W|rewrite save_header_declared, T by exact W; lia|].
  eapply Forall_impl; [|exact F]. cbn. lia.
Qed.
Lemma truncated_to_header junk a : well_formed a -> exists b, read_binary junk (firstn header_size (fst (save_binary a))) = Ok b /\
  f_nxs b = f_nxs a /\ f_jxs b = f_jxs a /\ f_zaid b = f_zaid a /\ f_xss b = repeat 0 (length (f_xss a)).
Proof.
  intro W. pose proof W as (T1 & T2 & T3 & T4 & Ht & Ha & I1 & I2 & N1 & N2 & J1 & J2 & X & NX & (z & Hz & Hn1 & Dz & Za) & Fi).
  unfold save_binary. cbn [fst]. rewrite firstn_app_le by (rewrite save_header_length; auto).
  rewrite save_header_length, Nat.sub_diag by exact W. cbn [firstn]. rewrite app_nil_r.
  unfold read_binary. generalize (length (save_header a (over (f_temperature a) kelvin_factor))). intro fl. unfold save_header.
  match goal with |- context [mkIn ?b false] => rewrite <- (app_nil_r b) end. rewrite <- !app_assoc. rewrite ignore_app by reflexivity.
  rewrite (read_app 10 _ _ _ T1), read_app by apply le_length. rewrite read_app by apply le_length.
  rewrite (read_app 10 _ _ _ T2), (read_app 70 _ _ _ T3), (read_app 10 _ _ _ T4).
  rewrite (read_izaw_app 16 _ _ _ I1 I2), (read_ints_app 16 _ _ N1 N2), (read_ints_app 32 _ _ J1 J2).
  rewrite ignore_app by reflexivity. rewrite NX.
  replace (Z.of_nat (length (f_xss a)) <? 0) with false by (symmetry; apply Z.ltb_ge; lia).
  cbn [read_records in_eof orb].
  assert (R : (if Z.of_nat (length (f_xss a)) <=? 0 then Ok (repeat 0 (Z.to_nat (8 * Z.of_nat (length (f_xss a))))) else
     (let '(rlen, s) := read 4 (firstn 4 junk) (mkIn [] false) in
      if 8 * Z.of_nat (length (f_xss a)) <? 8 * 0 + sizeZ (if in_eof s then [] else firstn (Z.to_nat (of_le rlen)) (in_bytes s)) then UB
      else read_records fl (ignore 4 (ignore (Z.to_nat (of_le rlen)) s)) rlen (0 + of_le rlen / 8) (Z.of_nat (length (f_xss a)))
        (overwrite (repeat 0 (Z.to_nat (8 * Z.of_nat (length (f_xss a))))) (Z.to_nat (8 * 0)) (if in_eof s then [] else firstn (Z.to_nat (of_le rlen)) (in_bytes s)))))
    = Ok (repeat 0 (8 * length (f_xss a)))).
  { replace (Z.to_nat (8 * Z.of_nat (length (f_xss a)))) with (8 * length (f_xss a))%nat by lia.
    destruct (Z.leb_spec (Z.of_nat (length (f_xss a))) 0); [reflexivity|].
    rewrite read_fst_short by (cbn; lia). cbn [in_eof]. change (sizeZ (@nil Z)) with 0.
    replace (8 * Z.of_nat (length (f_xss a)) <? 8 * 0 + 0) with false by (symmetry; apply Z.ltb_ge; lia).
    rewrite !ignore_eof, read_records_eof. reflexivity. }
  rewrite R. cbn [bind]. eexists. split; [reflexivity|]. cbn [f_nxs f_jxs f_zaid f_xss]. repeat split.
  - rewrite Za, (Z.mod_small (nth 1 (f_nxs a) 0)) by lia. rewrite <- Dz, (Z.mod_small z 256) by lia. f_equal.
    unfold wrap32. pose proof (Z.mod_pos_bound (nth 1 (f_nxs a) 0) 1000 ltac:(lia)). pose proof (Z.div_mod (nth 1 (f_nxs a) 0) 1000). rewrite <- Dz in H0. rewrite Z.mod_small by lia. lia.
  - rewrite Nat2Z.id. apply words8_zeros.
Qed.
