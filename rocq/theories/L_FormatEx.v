(** * The example file of C102 as text *)
From Coq Require Import Reals Lra Lia List ZArith.
From Flocq Require Import Core IEEE754.BinarySingleNaN IEEE754.Binary IEEE754.Bits.
From Verif Require Import Base NumR M_Ident M_AceBin M_AceText M_Ace M_Neutron S_AceBin S_AceText S_File S_Format L_FileEx Properties_AceText.
Import ListNotations.
Local Open Scope Z_scope.

(** the words of the file and the doubles they stand for *)
Definition fw : list (list Z * Z) :=
 [([48], 0);
  ([49], 4607182418800017408);
  ([50], 4611686018427387904);
  ([51], 4613937818241073152);
  ([52], 4616189618054758400);
  ([54], 4618441417868443648);
  ([49; 48], 4621819117588971520);
  ([49; 50], 4622945017495814144);
  ([49; 56], 4625759767262920704);
  ([50; 49], 4626604192193052672);
  ([53; 49], 4632374429215621120);
  ([49; 48; 50], 4636878028842991616);
  ([50; 48; 48], 4641240890982006784);
  ([45; 49], 13830554455654793216);
  ([48; 46; 53], 4602678819172646912);
  ([50; 46; 53], 4612811918334230528)].
Definition fw_idx : list nat := [1; 2; 3; 4; 4; 4; 1; 1; 1; 1; 1; 1; 0; 0; 0; 1; 0; 2; 8; 10; 11; 12; 13; 0; 2; 13; 0; 1; 5; 6; 1; 3; 1; 1; 1; 2; 2; 1; 1; 1; 3; 1; 1; 1; 0; 0; 0; 0; 1; 7; 0; 0; 3; 6; 0; 2; 1; 2; 14; 14; 0; 14; 0; 3; 9; 0; 2; 1; 2; 14; 14; 2; 14; 1; 1; 15]%nat.
Definition fw_word (i : nat) : list Z := fst (nth i fw ([], 0)).
Definition fw_bits (i : nat) : Z := snd (nth i fw ([], 0)).
Definition strtod_fw (w : list Z) : Z * bool := match find (fun p => if list_eq_dec Z.eq_dec (fst p) w then true else false) fw with Some p => (snd p, false) | None => (0, true) end.
(** 233; temperatures in MeV: whatever the text says *)
Definition stod_fw (w : list Z) : res Z := if list_eq_dec Z.eq_dec w (repeat 49 12) then Ok 4642401975260938240 else Ok 4492252567535076621.
Definition dec_double (z : Z) : R := B2R 53 1024 (b64_of_bits z).
Lemma dw0 : dec_double 0 = 0%R. Proof. reflexivity. Qed.
Lemma dw1 : dec_double 4607182418800017408 = (1)%R.
Proof. unfold dec_double. replace (B2R 53 1024 (b64_of_bits 4607182418800017408)) with (F2R (Float radix2 (cond_Zopp false 4503599627370496) (-52))) by reflexivity. unfold F2R. cbn [Fnum Fexp cond_Zopp Z.opp bpow]. change (Z.pow_pos radix2 52) with 4503599627370496. lra. Qed.
Lemma dw2 : dec_double 4611686018427387904 = (2)%R.
Proof. unfold dec_double. replace (B2R 53 1024 (b64_of_bits 4611686018427387904)) with (F2R (Float radix2 (cond_Zopp false 4503599627370496) (-51))) by reflexivity. unfold F2R. cbn [Fnum Fexp cond_Zopp Z.opp bpow]. change (Z.pow_pos radix2 51) with 2251799813685248. lra. Qed.
Lemma dw3 : dec_double 4613937818241073152 = (3)%R.
Proof. unfold dec_double. replace (B2R 53 1024 (b64_of_bits 4613937818241073152)) with (F2R (Float radix2 (cond_Zopp false 6755399441055744) (-51))) by reflexivity. unfold F2R. cbn [Fnum Fexp cond_Zopp Z.opp bpow]. change (Z.pow_pos radix2 51) with 2251799813685248. lra. Qed.
Lemma dw4 : dec_double 4616189618054758400 = (4)%R.
Proof. unfold dec_double. replace (B2R 53 1024 (b64_of_bits 4616189618054758400)) with (F2R (Float radix2 (cond_Zopp false 4503599627370496) (-50))) by reflexivity. unfold F2R. cbn [Fnum Fexp cond_Zopp Z.opp bpow]. change (Z.pow_pos radix2 50) with 1125899906842624. lra. Qed.
Lemma dw5 : dec_double 4618441417868443648 = (6)%R.
Proof. unfold dec_double. replace (B2R 53 1024 (b64_of_bits 4618441417868443648)) with (F2R (Float radix2 (cond_Zopp false 6755399441055744) (-50))) by reflexivity. unfold F2R. cbn [Fnum Fexp cond_Zopp Z.opp bpow]. change (Z.pow_pos radix2 50) with 1125899906842624. lra. Qed.
Lemma dw6 : dec_double 4621819117588971520 = (10)%R.
Proof. unfold dec_double. replace (B2R 53 1024 (b64_of_bits 4621819117588971520)) with (F2R (Float radix2 (cond_Zopp false 5629499534213120) (-49))) by reflexivity. unfold F2R. cbn [Fnum Fexp cond_Zopp Z.opp bpow]. change (Z.pow_pos radix2 49) with 562949953421312. lra. Qed.
Lemma dw7 : dec_double 4622945017495814144 = (12)%R.
Proof. unfold dec_double. replace (B2R 53 1024 (b64_of_bits 4622945017495814144)) with (F2R (Float radix2 (cond_Zopp false 6755399441055744) (-49))) by reflexivity. unfold F2R. cbn [Fnum Fexp cond_Zopp Z.opp bpow]. change (Z.pow_pos radix2 49) with 562949953421312. lra. Qed.
Lemma dw8 : dec_double 4625759767262920704 = (18)%R.
Proof. unfold dec_double. replace (B2R 53 1024 (b64_of_bits 4625759767262920704)) with (F2R (Float radix2 (cond_Zopp false 5066549580791808) (-48))) by reflexivity. unfold F2R. cbn [Fnum Fexp cond_Zopp Z.opp bpow]. change (Z.pow_pos radix2 48) with 281474976710656. lra. Qed.
Lemma dw9 : dec_double 4626604192193052672 = (21)%R.
Proof. unfold dec_double. replace (B2R 53 1024 (b64_of_bits 4626604192193052672)) with (F2R (Float radix2 (cond_Zopp false 5910974510923776) (-48))) by reflexivity. unfold F2R. cbn [Fnum Fexp cond_Zopp Z.opp bpow]. change (Z.pow_pos radix2 48) with 281474976710656. lra. Qed.
Lemma dw10 : dec_double 4632374429215621120 = (51)%R.
Proof. unfold dec_double. replace (B2R 53 1024 (b64_of_bits 4632374429215621120)) with (F2R (Float radix2 (cond_Zopp false 7177611906121728) (-47))) by reflexivity. unfold F2R. cbn [Fnum Fexp cond_Zopp Z.opp bpow]. change (Z.pow_pos radix2 47) with 140737488355328. lra. Qed.
Lemma dw11 : dec_double 4636878028842991616 = (102)%R.
Proof. unfold dec_double. replace (B2R 53 1024 (b64_of_bits 4636878028842991616)) with (F2R (Float radix2 (cond_Zopp false 7177611906121728) (-46))) by reflexivity. unfold F2R. cbn [Fnum Fexp cond_Zopp Z.opp bpow]. change (Z.pow_pos radix2 46) with 70368744177664. lra. Qed.
Lemma dw12 : dec_double 4641240890982006784 = (200)%R.
Proof. unfold dec_double. replace (B2R 53 1024 (b64_of_bits 4641240890982006784)) with (F2R (Float radix2 (cond_Zopp false 7036874417766400) (-45))) by reflexivity. unfold F2R. cbn [Fnum Fexp cond_Zopp Z.opp bpow]. change (Z.pow_pos radix2 45) with 35184372088832. lra. Qed.
Lemma dw13 : dec_double 13830554455654793216 = (-1)%R.
Proof. unfold dec_double. replace (B2R 53 1024 (b64_of_bits 13830554455654793216)) with (F2R (Float radix2 (cond_Zopp true 4503599627370496) (-52))) by reflexivity. unfold F2R. cbn [Fnum Fexp cond_Zopp Z.opp bpow]. change (Z.pow_pos radix2 52) with 4503599627370496. lra. Qed.
Lemma dw14 : dec_double 4602678819172646912 = (1 / 2)%R.
Proof. unfold dec_double. replace (B2R 53 1024 (b64_of_bits 4602678819172646912)) with (F2R (Float radix2 (cond_Zopp false 4503599627370496) (-53))) by reflexivity. unfold F2R. cbn [Fnum Fexp cond_Zopp Z.opp bpow]. change (Z.pow_pos radix2 53) with 9007199254740992. lra. Qed.
Lemma dw15 : dec_double 4612811918334230528 = (5 / 2)%R.
Proof. unfold dec_double. replace (B2R 53 1024 (b64_of_bits 4612811918334230528)) with (F2R (Float radix2 (cond_Zopp false 5629499534213120) (-51))) by reflexivity. unfold F2R. cbn [Fnum Fexp cond_Zopp Z.opp bpow]. change (Z.pow_pos radix2 51) with 2251799813685248. lra. Qed.
Lemma dwawr : dec_double 4642401975260938240 = (233)%R.
Proof. unfold dec_double. replace (B2R 53 1024 (b64_of_bits 4642401975260938240)) with (F2R (Float radix2 (cond_Zopp false 8197958696697856) (-45))) by reflexivity. unfold F2R. cbn [Fnum Fexp cond_Zopp Z.opp bpow]. change (Z.pow_pos radix2 45) with 35184372088832. lra. Qed.
Lemma fw_decoded : map (fun i => dec_double (fw_bits i)) fw_idx = fx_xss 4.
Proof.
  unfold fw_idx, fw_bits, fw. cbn [map nth snd]. rewrite ?dw0, ?dw1, ?dw2, ?dw3, ?dw4, ?dw5, ?dw6, ?dw7, ?dw8, ?dw9, ?dw10, ?dw11, ?dw12, ?dw13, ?dw14, ?dw15. reflexivity.
Qed.
Lemma digits_ok w : forallb (fun b => (48 <=? b) && (b <=? 57)) w = true -> Forall digit w.
Proof. intros H. apply Forall_forall. intros b Hb. rewrite forallb_forall in H. specialize (H b Hb). unfold digit. lia. Qed.
Lemma whole_text w : w <> [] -> forallb (fun b => (48 <=? b) && (b <=? 57)) w = true -> float_text w.
Proof.
  intros NE H. apply digits_ok in H. exists [], w, [], []. split; [left; reflexivity|]. split; [exact H|]. split; [left; reflexivity|]. split; [|split; [left; reflexivity|rewrite !app_nil_r; reflexivity]].
  destruct w as [|b w]; [elim NE; reflexivity|]. exists b. split; [left; reflexivity|]. inversion H. assumption.
Qed.
Lemma fw_text i : (i < 16)%nat -> double_text strtod_fw (fw_word i) (fw_bits i).
Proof.
  intros H. split; [|do 16 (destruct i as [|i]; [vm_compute; reflexivity|]); lia].
  do 13 (destruct i as [|i]; [apply whole_text; [discriminate|reflexivity]|]). destruct i as [|i]; [|destruct i as [|i]; [|destruct i as [|i]; [|lia]]].
  - exists [45], [49], [], []. split; [right; right; reflexivity|]. split; [apply digits_ok; reflexivity|]. split; [left; reflexivity|]. split; [exists 49; split; [left; reflexivity|unfold digit; lia]|]. split; [left; reflexivity|reflexivity].
  - exists [], [48], [46; 53], []. split; [left; reflexivity|]. split; [apply digits_ok; reflexivity|]. split; [right; exists [53]; split; [reflexivity|apply digits_ok; reflexivity]|]. split; [exists 48; split; [left; reflexivity|unfold digit; lia]|]. split; [left; reflexivity|reflexivity].
  - exists [], [50], [46; 53], []. split; [left; reflexivity|]. split; [apply digits_ok; reflexivity|]. split; [right; exists [53]; split; [reflexivity|apply digits_ok; reflexivity]|]. split; [exists 50; split; [left; reflexivity|unfold digit; lia]|]. split; [left; reflexivity|reflexivity].
Qed.
Lemma written_list {V} (P : list Z -> V -> Prop) (word : nat -> list Z) (val : nat -> V) l : (forall i, In i l -> P (word i) (val i)) -> written P (map val l) (concat (map (fun i => 32 :: word i) l)).
Proof.
  induction l as [|i l IH]; intros H; [constructor|]. cbn [map concat]. apply (w_cons P (val i) _ [32] (word i) _); [split; [discriminate|repeat constructor; unfold white; cbn; tauto]|apply H; left; reflexivity|]. apply IH. intros j Hj. apply H. right. exact Hj.
Qed.
(** integers, in decimal: an arbitrary text for each is enough here *)
Definition iw : list (list Z * Z) := [([48], 0); ([49], 1); ([55; 54], 76); ([57; 50; 50; 51; 53], 92235); ([51], 3); ([55; 52], 74); ([49; 57], 19); ([50; 50], 22); ([50; 53], 25); ([50; 56], 28); ([51; 49], 31);
  ([52; 53], 45); ([52; 54], 46); ([52; 57], 49); ([53; 50], 52); ([49; 54], 16)].
Definition iw_word (i : nat) : list Z := fst (nth i iw ([], 0)).
Definition iw_val (i : nat) : Z := snd (nth i iw ([], 0)).
Lemma iw_text i : (i < 16)%nat -> int_text (iw_word i) (iw_val i).
Proof. intros H. do 16 (destruct i as [|i]; [apply int_text_ex; [unfold is_int32; vm_compute; split; [discriminate|reflexivity]|discriminate|apply digits_ok; reflexivity|reflexivity]|]). lia. Qed.
Definition nx_idx : list nat := [2; 3; 4; 4; 0; 0; 0; 0; 0; 0; 0; 0; 0; 0; 0; 0]%nat.
Definition jx_idx : list nat := [1; 5; 6; 7; 8; 9; 10; 11; 12; 13; 14; 15; 0; 0; 0; 0; 0; 0; 0; 0; 0; 0; 0; 0; 0; 0; 0; 0; 0; 0; 0; 0]%nat.
Lemma nx_vals : map iw_val nx_idx = fx_nxs. Proof. reflexivity. Qed.
Lemma jx_vals : map iw_val jx_idx = fx_jxs. Proof. reflexivity. Qed.
Lemma below_16 l : forallb (fun i => Nat.ltb i 16) l = true -> forall i, In i l -> (i < 16)%nat.
Proof. intros H i Hi. rewrite forallb_forall in H. apply Nat.ltb_lt, H, Hi. Qed.
Definition fw_texts : texts := mkTexts (repeat 49 12) (repeat 48 12) (57 :: repeat 48 9) (repeat 49 10) (repeat 65 70) (repeat 66 10).
Lemma fx_as_text stoi : exists hb b izaw xt t, head_text stoi fw_texts hb /\ stod_fw (x_awr fw_texts) = Ok 4642401975260938240 /\ stod_fw (x_temp fw_texts) = Ok t /\
  arrays strtod_fw izaw fx_nxs fx_jxs b /\ written (double_text strtod_fw) (map fw_bits fw_idx) xt /\
  forall temp, mkAce (nth 1 fx_nxs 0) (dec_double 4642401975260938240) temp (0 <? nth 1 fx_jxs 0) fx_nxs fx_jxs (map dec_double (map fw_bits fw_idx)) = fxs 4 temp.
Proof.
  do 2 eexists. exists (repeat (0, 0) 16). do 2 eexists. split.
  { apply (legacy stoi fw_texts [32]); try reflexivity; [cbn; lia|]. split; [reflexivity|]. split; [reflexivity|]. split; [reflexivity|]. split; [cbn; lia|]. exists [10]. split; [left; reflexivity|reflexivity]. }
  split; [reflexivity|]. split; [reflexivity|]. split.
  { split; [reflexivity|]. split; [reflexivity|]. split; [reflexivity|]. do 3 eexists. split.
    - apply (written_repeat _ (0, 0) ([48] ++ [32] ++ [48]) 16). exists [48], [32], [48]. split; [exact (iw_text 0 ltac:(lia))|]. split; [split; [discriminate|repeat constructor; unfold white; cbn; tauto]|]. split; [exact (fw_text 0 ltac:(lia))|reflexivity].
    - rewrite <- nx_vals, <- jx_vals. split; [apply (written_list int_text iw_word iw_val); intros i Hi; apply iw_text, (below_16 nx_idx); [reflexivity|exact Hi]|]. split; [|reflexivity].
      apply (written_list int_text iw_word iw_val); intros i Hi; apply iw_text, (below_16 jx_idx); [reflexivity|exact Hi]. }
  split; [apply (written_list _ fw_word fw_bits); intros i Hi; apply fw_text, (below_16 fw_idx); [reflexivity|exact Hi]|].
  intros temp. rewrite map_map. rewrite fw_decoded, dwawr. reflexivity.
Qed.
