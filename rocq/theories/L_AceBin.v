(** * Lemmas about the binary ACE format *)
From Verif Require Import Base M_Grid M_Ident M_AceBin S_AceBin.
From Flocq Require Import Core IEEE754.BinarySingleNaN IEEE754.Binary IEEE754.Bits.
From Coq Require Import ZArith List Lia. Import ListNotations.
Local Open Scope list_scope.
Local Open Scope Z_scope.

Lemma le_length n z : length (le n z) = n. Proof. revert z. induction n; intro; simpl; [|rewrite IHn]; reflexivity. Qed.
Lemma of_le_le n z : 0 <= z < 256 ^ Z.of_nat n -> of_le (le n z) = z.
Proof.
  revert z. induction n as [|n IH]; intros z H; [cbn in *; lia|].
  change (of_le (le (S n) z)) with (z mod 256 + 256 * of_le (le n (z / 256))).
  rewrite IH; [pose proof (Z.div_mod z 256); lia|].
  rewrite Nat2Z.inj_succ, Z.pow_succ_r in H by lia. split; [apply Z.div_pos; lia|apply Z.div_lt_upper_bound; lia].
Qed.
Lemma le_bytes n z : Forall is_byte (le n z).
Proof. revert z. induction n; intro; cbn [le]; constructor; [unfold is_byte; apply Z.mod_pos_bound; lia|apply IHn]. Qed.
Lemma of_le_nonneg bs : Forall is_byte bs -> 0 <= of_le bs.
Proof. unfold is_byte. induction 1; cbn [of_le fold_right]; [lia|]. unfold of_le in IHForall. lia. Qed.
Lemma of_le_le8 z : is_double z -> of_le (le 8 z) = z.
Proof. intro H. apply of_le_le. unfold is_double in H. change (256 ^ Z.of_nat 8) with (2 ^ 64). exact H. Qed.
Lemma int32_round z : is_int32 z -> int32_of (int32_bytes z) = z.
Proof.
  unfold is_int32, int32_of, int32_bytes. intros H. cbv zeta.
  assert (M : 0 <= z mod 2 ^ 32 < 2 ^ 32) by (apply Z.mod_pos_bound; lia).
  rewrite of_le_le by exact M.
  destruct (Z.ltb_spec (z mod 2 ^ 32) (2 ^ 31)); pose proof (Z.div_mod z (2 ^ 32)); lia.
Qed.
Lemma int32_length z : length (int32_bytes z) = 4%nat. Proof. apply le_length. Qed.

Lemma read_app n old d r : length d = n -> read n old (mkIn (d ++ r) false) = (d, mkIn r false).
Proof.
  intros <-. unfold read. cbn [in_eof in_bytes]. rewrite app_length.
  replace (length d <=? length d + length r)%nat with true by (symmetry; apply Nat.leb_le; lia).
  rewrite firstn_app, firstn_all, Nat.sub_diag, skipn_app, skipn_all, Nat.sub_diag. cbn. rewrite app_nil_r. reflexivity.
Qed.
Lemma ignore_app n d r : length d = n -> ignore n (mkIn (d ++ r) false) = mkIn r false.
Proof. intro H. unfold ignore. rewrite (read_app n [] d r H). reflexivity. Qed.

Lemma read_izaw_app k l r junk : length l = k -> Forall (fun p => is_int32 (fst p) /\ is_double (snd p)) l ->
  read_izaw k junk (mkIn (flat_map (fun p => int32_bytes (fst p) ++ le 8 (snd p)) l ++ r) false) = (l, mkIn r false).
Proof.
  revert l. induction k as [|k IH]; intros [|[z a] l] H F; try discriminate; [reflexivity|].
  inversion F as [|? ? [Hz Ha] F']; subst. cbn [flat_map read_izaw fst snd] in *.
  rewrite <- !app_assoc. rewrite read_app by apply int32_length. rewrite read_app by apply le_length.
  rewrite IH by (auto; cbn in H; lia). rewrite int32_round, of_le_le8 by assumption. reflexivity.
Qed.
Lemma read_ints_app k l r : length l = k -> Forall is_int32 l -> read_ints k (mkIn (flat_map int32_bytes l ++ r) false) = (l, mkIn r false).
Proof.
  revert l. induction k as [|k IH]; intros [|z l] H F; try discriminate; [reflexivity|].
  inversion F; subst. cbn [flat_map read_ints]. rewrite <- app_assoc. rewrite read_app by apply int32_length.
  rewrite IH by (auto; cbn in H; lia). rewrite int32_round by assumption. reflexivity.
Qed.

Lemma doubles_length l : length (doubles l) = (8 * length l)%nat.
Proof. induction l; cbn [doubles flat_map length]; [reflexivity|]. rewrite app_length, le_length. fold (doubles l). lia. Qed.
Lemma doubles_app a b : doubles (a ++ b) = doubles a ++ doubles b. Proof. apply flat_map_app. Qed.
Lemma words8_doubles l : Forall is_double l -> words8 (length l) (doubles l) = l.
Proof.
  induction 1 as [|z l Hz F IH]; [reflexivity|]. cbn [length words8 doubles flat_map]. fold (doubles l).
  destruct (le 8 z ++ doubles l) eqn:E; [apply (f_equal (@length Z)) in E; rewrite app_length, le_length in E; cbn in E; lia|].
  rewrite <- E, firstn_app, le_length, skipn_app, le_length, Nat.sub_diag. change (firstn 0 (doubles l)) with (@nil Z). change (skipn 0 (doubles l)) with (doubles l).
  rewrite <- (le_length 8 z) at 1 3. rewrite firstn_all, skipn_all. cbn [app].
  rewrite app_nil_r, of_le_le8, IH by assumption. reflexivity.
Qed.

Lemma overwrite_mid p z d : overwrite (p ++ z) (length p) d = p ++ d ++ skipn (length d) z.
Proof.
  unfold overwrite. rewrite firstn_app, firstn_all, Nat.sub_diag. cbn [firstn]. rewrite app_nil_r. f_equal. f_equal.
  rewrite skipn_app, skipn_all2 by lia. cbn. f_equal. lia.
Qed.

(** The records: what has been read is in place, the rest is zero *)
Lemma read_save_records n : forall fuel done xs r rlen, (length xs <= n)%nat -> (length xs <= fuel)%nat ->
  read_records fuel (mkIn (save_records n xs ++ r) false) rlen (sizeZ done) (sizeZ (done ++ xs))
    (doubles done ++ repeat 0 (8 * length xs)) = Ok (doubles (done ++ xs)).
Proof.
  induction n as [|n IH]; intros fuel done xs r rlen Hn Hf; unfold sizeZ in *.
  { destruct xs; [|cbn in Hn; lia]. rewrite !app_nil_r. cbn [repeat length Nat.mul]. destruct fuel; cbn [read_records in_eof orb]; rewrite Z.leb_refl, ?app_nil_r; reflexivity. }
  destruct xs as [|x xs].
  { rewrite !app_nil_r. cbn [repeat length Nat.mul]. destruct fuel; cbn [read_records in_eof orb]; rewrite Z.leb_refl, ?app_nil_r; reflexivity. }
  set (l := x :: xs) in *. assert (L : (0 < length l)%nat) by (cbn; lia).
  destruct fuel as [|fuel]; [lia|].
  assert (S1 : save_records (S n) l = le 4 ((8 * sizeZ (firstn 512 l)) mod 2 ^ 32) ++ doubles (firstn 512 l) ++ le 4 ((8 * sizeZ (firstn 512 l)) mod 2 ^ 32) ++ save_records n (skipn 512 l)) by reflexivity.
  rewrite S1. clear S1. set (now := firstn 512 l). set (rest := skipn 512 l).
  assert (Ln : (length now <= 512)%nat /\ (0 < length now)%nat) by (unfold now; rewrite firstn_length; lia).
  assert (SP : l = now ++ rest) by (symmetry; apply firstn_skipn).
  assert (Mm : (8 * sizeZ now) mod 2 ^ 32 = 8 * sizeZ now) by (apply Z.mod_small; unfold sizeZ; lia).
  rewrite Mm. cbn [read_records in_eof orb].
  replace (Z.of_nat (length (done ++ l)) <=? Z.of_nat (length done)) with false by (symmetry; apply Z.leb_gt; rewrite app_length; lia).
  rewrite <- !app_assoc. rewrite read_app by apply le_length.
  rewrite of_le_le by (change (256 ^ Z.of_nat 4) with 4294967296; unfold sizeZ; lia). cbn [in_eof in_bytes].
  assert (DL : length (doubles now) = Z.to_nat (8 * sizeZ now)) by (rewrite doubles_length; unfold sizeZ; lia).
  rewrite <- DL. rewrite firstn_app, Nat.sub_diag, firstn_all. cbn [firstn]. rewrite app_nil_r.
  unfold sizeZ. rewrite app_length, SP, app_length. rewrite doubles_length.
  replace (8 * Z.of_nat (length done + (length now + length rest)) <? 8 * Z.of_nat (length done) + Z.of_nat (8 * length now)) with false by (symmetry; apply Z.ltb_ge; lia).
  rewrite <- doubles_length. rewrite (ignore_app (length (doubles now))) by reflexivity. rewrite ignore_app by apply le_length.
  replace (Z.to_nat (8 * Z.of_nat (length done))) with (length (doubles done)) by (rewrite doubles_length; lia).
  rewrite overwrite_mid.
  replace (skipn (length (doubles now)) (repeat 0 (8 * (length now + length rest)))) with (repeat 0 (8 * length rest)).
  2:{ rewrite doubles_length. replace (8 * (length now + length rest))%nat with (8 * length now + 8 * length rest)%nat by lia.
      rewrite repeat_app, skipn_app, skipn_all2, repeat_length, Nat.sub_diag by (rewrite repeat_length; lia). reflexivity. }
  replace (Z.of_nat (length done) + 8 * Z.of_nat (length now) / 8) with (Z.of_nat (length (done ++ now))) by (rewrite app_length, (Z.mul_comm 8), Z.div_mul by lia; lia).
  replace (Z.of_nat (length done + (length now + length rest))) with (Z.of_nat (length ((done ++ now) ++ rest))) by (rewrite !app_length; lia).
  rewrite app_assoc, <- doubles_app. rewrite IH; [rewrite <- app_assoc; reflexivity| |]; assert (length l = length now + length rest)%nat by (rewrite SP at 1; apply app_length); lia.
Qed.

Lemma bits_double x : is_double (bits_of_b64 x).
Proof. unfold is_double, bits_of_b64. apply (bits_of_binary_float_range 52 11); lia. Qed.
Lemma times_double a b : is_double (times a b). Proof. apply bits_double. Qed.
Lemma over_double a b : is_double (over a b). Proof. apply bits_double. Qed.

Definition with_temperature (a : acefile) (t : Z) : acefile :=
  mkFile (f_zaid a) t (f_awr a) (f_fissile a) (f_zaid_txt a) (f_date a) (f_comment a) (f_mat a) (f_izaw a) (f_nxs a) (f_jxs a) (f_xss a).
Lemma save_records_length n : forall xs, (length xs <= n)%nat -> (length xs <= length (save_records n xs))%nat.
Proof.
  induction n as [|n IH]; intros xs H; [lia|]. destruct xs as [|x xs]; [cbn; lia|]. set (l := x :: xs) in *.
  change (save_records (S n) l) with (le 4 ((8 * sizeZ (firstn 512 l)) mod 2 ^ 32) ++ doubles (firstn 512 l) ++ le 4 ((8 * sizeZ (firstn 512 l)) mod 2 ^ 32) ++ save_records n (skipn 512 l)).
  rewrite !app_length, doubles_length, !le_length.
  assert (length l = length (firstn 512 l) + length (skipn 512 l))%nat by (rewrite <- app_length, firstn_skipn; reflexivity).
  assert (0 < length l)%nat by (cbn; lia). assert (0 < length (firstn 512 l))%nat by (rewrite firstn_length; lia).
  specialize (IH (skipn 512 l)). lia.
Qed.

Lemma round_trip junk a : well_formed a ->
  read_binary junk (fst (save_binary a)) = Ok (with_temperature a (times (over (f_temperature a) kelvin_factor) kelvin_factor)).
Proof.
  intros (T1 & T2 & T3 & T4 & Ht & Ha & I1 & I2 & N1 & N2 & J1 & J2 & X & NX & (z & Hz & Hn1 & Dz & Za) & Fi).
  unfold save_binary. cbn [fst]. set (bytes := save_header a _ ++ _).
  assert (FL : (length (f_xss a) <= length bytes)%nat) by (unfold bytes; rewrite app_length; pose proof (save_records_length _ (f_xss a) (le_n _)); lia).
  unfold read_binary. generalize (length bytes) FL. intros fl FL'. unfold bytes, save_header. clear FL bytes.
  rewrite <- !app_assoc. rewrite ignore_app by reflexivity.
  rewrite (read_app 10 _ _ _ T1), read_app by apply le_length. rewrite read_app by apply le_length.
  rewrite (read_app 10 _ _ _ T2), (read_app 70 _ _ _ T3), (read_app 10 _ _ _ T4).
  rewrite (read_izaw_app 16 _ _ _ I1 I2), (read_ints_app 16 _ _ N1 N2), (read_ints_app 32 _ _ J1 J2).
  rewrite ignore_app by reflexivity. rewrite NX.
  replace (Z.of_nat (length (f_xss a)) <? 0) with false by (symmetry; apply Z.ltb_ge; lia).
  pose proof (read_save_records (length (f_xss a)) (S fl) [] (f_xss a) [] (firstn 4 junk) (le_n _) ltac:(lia)) as R.
  cbn [app doubles flat_map] in R. unfold sizeZ in R. rewrite app_nil_r in R. cbn [length] in R.
  replace (Z.to_nat (8 * Z.of_nat (length (f_xss a)))) with (8 * length (f_xss a))%nat by lia.
  change (Z.of_nat 0) with 0 in R. rewrite R. cbn [bind]. rewrite Nat2Z.id, words8_doubles by exact X.
  rewrite !of_le_le8 by (assumption || apply over_double).
  unfold with_temperature. rewrite Fi, Za. do 2 f_equal.
  rewrite (Z.mod_small (nth 1 (f_nxs a) 0)) by lia. rewrite <- Dz, (Z.mod_small z 256) by lia. f_equal.
  unfold wrap32. pose proof (Z.mod_pos_bound (nth 1 (f_nxs a) 0) 1000 ltac:(lia)). pose proof (Z.div_mod (nth 1 (f_nxs a) 0) 1000). rewrite <- Dz in H0. rewrite Z.mod_small by lia. lia.
Qed.
