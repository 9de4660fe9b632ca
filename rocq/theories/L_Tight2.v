(** * Layout of a saved file, order of the listings, hashes of nuclides *)
From Coq Require Import ZArith Lia List Permutation Sorted ZifyBool ZifyNat.
From Verif Require Import Base M_Grid M_Ident M_AceBin S_AceBin L_AceBin L_AceBin2 L_Ident3 M_Library.
Import ListNotations.
Local Open Scope Z_scope.

Lemma records_layout n : forall xs, (length xs <= n)%nat -> exists recs, save_records n xs = flat_map rec_bytes recs /\ concat recs = flat_map (le 8) xs /\
  Forall (fun d => (0 < length d)%nat) recs /\ Forall (fun d => (length d <= 4096)%nat) recs /\ Forall (fun d => length d = 4096%nat) (removelast recs).
Proof.
  induction n as [|n IH]; intros xs H.
  { destruct xs; [|cbn in H; lia]. exists []. repeat split; constructor. }
  destruct xs as [|x xs]; [exists []; repeat split; constructor|]. set (l := x :: xs) in *. assert (L : (0 < length l)%nat) by (cbn; lia).
  change (save_records (S n) l) with (le 4 ((8 * sizeZ (firstn 512 l)) mod 2 ^ 32) ++ doubles (firstn 512 l) ++ le 4 ((8 * sizeZ (firstn 512 l)) mod 2 ^ 32) ++ save_records n (skipn 512 l)).
  pose proof (firstn_length 512 l) as FL. pose proof (firstn_skipn 512 l) as FS.
  assert (LS : length l = (length (firstn 512 l) + length (skipn 512 l))%nat) by (rewrite <- app_length, FS; reflexivity).
  destruct (IH (skipn 512 l)) as (recs & E & C & F1 & F2 & F3); [lia|]. exists (doubles (firstn 512 l) :: recs). rewrite E. repeat split.
  - cbn [flat_map]. unfold rec_bytes at 2. rewrite <- !app_assoc. rewrite Z.mod_small by (unfold sizeZ; lia).
    replace (Z.of_nat (length (doubles (firstn 512 l)))) with (8 * sizeZ (firstn 512 l)) by (rewrite doubles_length; unfold sizeZ; lia). reflexivity.
  - cbn [concat]. rewrite C. unfold doubles. rewrite <- flat_map_app, FS. reflexivity.
  - constructor; [rewrite doubles_length; lia|exact F1].
  - constructor; [rewrite doubles_length; lia|exact F2].
  - destruct recs as [|r recs]; [constructor|]. change (removelast (doubles (firstn 512 l) :: r :: recs)) with (doubles (firstn 512 l) :: removelast (r :: recs)). constructor; [|exact F3].
    rewrite doubles_length. assert (0 < length (skipn 512 l))%nat.
    { destruct (skipn 512 l); [|cbn; lia]. cbn [flat_map concat] in C. inversion F1; subst. destruct r; [cbn in *; lia|discriminate]. }
    rewrite skipn_length in *. lia.
Qed.
Lemma saved_layout a : well_formed a -> exists h recs, fst (save_binary a) = rec_bytes h ++ flat_map rec_bytes recs /\ length h = 500%nat /\ concat recs = flat_map (le 8) (f_xss a) /\
  Forall (fun d => (0 < length d)%nat) recs /\ Forall (fun d => (length d <= 4096)%nat) recs /\ Forall (fun d => length d = 4096%nat) (removelast recs) /\
  h = f_zaid_txt a ++ le 8 (f_awr a) ++ le 8 (over (f_temperature a) kelvin_factor) ++ f_date a ++ f_comment a ++ f_mat a ++
      flat_map (fun p => le 4 (fst p mod 2 ^ 32) ++ le 8 (snd p)) (f_izaw a) ++ flat_map (fun z => le 4 (z mod 2 ^ 32)) (f_nxs a) ++ flat_map (fun z => le 4 (z mod 2 ^ 32)) (f_jxs a).
Proof.
  intros W. destruct (records_layout _ (f_xss a) (le_n _)) as (recs & E & C & F1 & F2 & F3). unfold save_binary. cbn [fst]. rewrite E.
  pose proof (save_header_length a (over (f_temperature a) kelvin_factor) W) as HL.
  set (h := f_zaid_txt a ++ _). exists h, recs.
  assert (EL : length h = 500%nat).
  { unfold save_header in HL. unfold h. rewrite !app_length, !le_length in HL. rewrite !app_length, !le_length. unfold header_size in HL. unfold int32_bytes in HL. lia. }
  split; [|split; [exact EL|split; [exact C|split; [exact F1|split; [exact F2|split; [exact F3|reflexivity]]]]]].
  f_equal. unfold rec_bytes. rewrite EL. unfold save_header, h. rewrite <- !app_assoc. reflexivity.
Qed.

(** listings *)
Definition zaid_le (a b : zaid) : Prop := za_Z a < za_Z b \/ za_Z a = za_Z b /\ za_A a <= za_A b.
Lemma zaid_le_trans a b c : zaid_le a b -> zaid_le b c -> zaid_le a c. Proof. unfold zaid_le. lia. Qed.
Lemma lt_le a b : zaid_lt a b = true -> zaid_le a b. Proof. intros H. apply zaid_lt_lex in H. unfold zaid_le. lia. Qed.
Lemma nlt_le a b : zaid_lt a b = false -> zaid_le b a.
Proof. intros H. assert (N : ~ (za_Z a < za_Z b \/ za_Z a = za_Z b /\ za_A a < za_A b)) by (rewrite <- zaid_lt_lex, H; discriminate). unfold zaid_le. lia. Qed.
Lemma insert_perm z : forall l, Permutation (z :: l) (insert_zaid z l).
Proof. induction l as [|u l IH]; [reflexivity|]. cbn [insert_zaid]. destruct (zaid_lt u z); [|reflexivity]. rewrite perm_swap. apply perm_skip, IH. Qed.
Lemma insert_sorted_zaid z : forall l, StronglySorted zaid_le l -> StronglySorted zaid_le (insert_zaid z l).
Proof.
  induction l as [|u l IH]; intros H; [repeat constructor|]. inversion H as [|? ? S F]; subst. cbn [insert_zaid]. destruct (zaid_lt u z) eqn:E.
  - constructor; [apply IH, S|]. apply (Permutation_Forall (insert_perm z l)). constructor; [apply lt_le, E|exact F].
  - constructor; [exact H|]. apply nlt_le in E. constructor; [exact E|]. eapply Forall_impl; [|exact F]. intros v Hv. exact (zaid_le_trans _ _ _ E Hv).
Qed.
Lemma mapR_Forall2 {A B} (f : A -> res B) : forall l r, mapR f l = Ok r -> Forall2 (fun x y => f x = Ok y) l r.
Proof.
  induction l as [|x l IH]; intros r H; cbn [mapR] in H; [injection H as <-; constructor|].
  destruct (f x) eqn:E; cbn [bind] in H; try discriminate. destruct (mapR f l) eqn:E2; cbn [bind] in H; try discriminate. injection H as <-. constructor; [exact E|apply IH; reflexivity].
Qed.
Lemma listing_order {T} {N : Num T} (lib : @library T) syms : list_STNeutron lib = Ok syms ->
  exists zs, Permutation zs (map fst (lib_neutron lib)) /\ StronglySorted zaid_le zs /\ Forall2 (fun z s => zaid_symbol z = Ok s) zs syms.
Proof.
  intros H. exists (fold_right insert_zaid [] (map fst (lib_neutron lib))). split; [|split; [|apply mapR_Forall2, H]].
  - generalize (map fst (lib_neutron lib)). induction l as [|z l IH]; [reflexivity|]. cbn [fold_right]. rewrite <- insert_perm. apply perm_skip, IH.
  - generalize (map fst (lib_neutron lib)). induction l as [|z l IH]; [constructor|]. cbn [fold_right]. apply insert_sorted_zaid, IH.
Qed.
(** the hash of a nuclide is the hash of its ZAID *)
Lemma nuclide_hash_zaid h n : nuclide_hash h n = zaid_hash h (nuclide_zaid n).
Proof. unfold nuclide_hash, zaid_hash, nuclide_zaid, zaid_number. cbn [za_Z za_A]. f_equal. f_equal. destruct (0 <? nu_level n); lia. Qed.
