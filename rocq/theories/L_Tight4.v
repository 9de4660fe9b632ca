(** * Small pinned facts, continued: file-name extensions, integer conversion, coefficient lists, table codes *)
From Coq Require Import Reals Lra Lia List Ascii String ZifyBool ZifyNat.
From Verif Require Import Base NumR M_Grid M_Ident L_Ident L_Ident2 M_Ace M_Library M_Legendre M_Laws M_Interp L_Tight3.
Import ListNotations.
Local Open Scope R_scope.

Lemma trunc_i32_iff : forall (x : R) z, trunc_i32 x = Ok z <-> (- 2 ^ 31 <= z < 2 ^ 31)%Z /\ (0 <= x /\ IZR z <= x < IZR z + 1 \/ x < 0 /\ IZR z - 1 < x <= IZR z).
Proof.
  intros x z. unfold trunc_i32. cbn [nfloor NumR].
  assert (U : forall y k, IZR k <= y < IZR k + 1 -> Int_part y = k).
  { intros y k H. pose proof (base_Int_part y) as [I1 I2]. assert (IZR k < IZR (Int_part y + 1)) by (rewrite plus_IZR; lra). assert (IZR (Int_part y) < IZR (k + 1)) by (rewrite plus_IZR; lra). apply lt_IZR in H0, H1. lia. }
  assert (E : (if (x >=~ #0)%num then Ok (Int_part x) else Ok (- Int_part (-~ x)%num)%Z) = Ok z <-> (0 <= x /\ IZR z <= x < IZR z + 1 \/ x < 0 /\ IZR z - 1 < x <= IZR z)).
  { rnum. destruct (Rleb_spec 0 x) as [P|P].
    - pose proof (base_Int_part x) as [I1 I2]. split; [intros H; injection H as <-; left; lra|]. intros [[_ H]|[H _]]; [|lra]. rewrite (U x z H). reflexivity.
    - pose proof (base_Int_part (- x)) as [I1 I2]. split; [intros H; injection H as <-; right; rewrite opp_IZR; lra|]. intros [[H _]|[_ H]]; [lra|]. rewrite (U (- x) (- z)%Z) by (rewrite opp_IZR; lra). f_equal. lia. }
  match goal with |- context [bind ?m _] => destruct m as [k| | |] eqn:K end.
  - destruct ((- 2 ^ 31 <=? k) && (k <? 2 ^ 31))%Z%bool eqn:B; cbn [bind]; rewrite B.
    + split; [intros H; injection H as <-; split; [lia|apply E; reflexivity]|]. intros [_ H]. apply E in H. exact H.
    + split; [discriminate|]. intros [B' H]. apply E in H. injection H as ->. lia.
  - split; [discriminate|]. intros [_ H]. apply E in H. discriminate H.
  - split; [discriminate|]. intros [_ H]. apply E in H. discriminate H.
  - split; [discriminate|]. intros [_ H]. apply E in H. discriminate H.
Qed.

(** a dot *)
Definition no_dot (s : str) : Prop := ~ In "."%char s.
Definition word_char (c : ascii) : Prop := In c (list_ascii_of_string "ABCDEFGHIJKLMNOPQRSTUVWXYZabcdefghijklmnopqrstuvwxyz0123456789_").
Lemma word_char_iff c : is_word c = true <-> word_char c.
Proof.
  unfold word_char. split.
  - destruct c as [[] [] [] [] [] [] [] []]; vm_compute; intros H; try discriminate H; repeat (first [left; reflexivity|right]).
  - intros H. cbn [list_ascii_of_string In] in H. repeat (destruct H as [<-|H]; [reflexivity|]). contradiction.
Qed.
Definition not_dot (c : ascii) : bool := negb (code c =? 46)%Z.
Lemma not_dot_iff c : not_dot c = true <-> c <> "."%char.
Proof. split; [intros H ->; discriminate H|]. intros H. destruct (not_dot c) eqn:E; [reflexivity|]. exfalso. apply H. destruct c as [[] [] [] [] [] [] [] []]; first [reflexivity|discriminate E]. Qed.
Lemma no_dot_all s : no_dot s -> all not_dot s.
Proof. intros H c I. apply not_dot_iff. intros ->. exact (H I). Qed.
Lemma word_not_dot s : (forall c, In c s -> word_char c) -> all not_dot s.
Proof. intros H c I. apply H, word_char_iff in I. apply not_dot_iff. intros ->. discriminate I. Qed.

Lemma remove_plain e s : no_dot s -> regex_remove (rx_seq (rx_chr (fun c => code c =? 46)%Z) e) s = s.
Proof.
  intros N. unfold regex_remove. pose proof (remove_copy _ _ (skip_first (fun c => code c =? 46)%Z e) s [] [] (S (Datatypes.length s)) (no_dot_all _ N) ltac:(lia)) as G.
  rewrite app_nil_r in G. rewrite G. replace (S (Datatypes.length s) - Datatypes.length s)%nat with 1%nat by lia. cbn. apply app_nil_r.
Qed.
Definition dotted (e : regex) : regex := rx_seq (rx_chr (fun c => code c =? 46)%Z) e.
Lemma remove_rest e : forall w c f, all not_dot w -> (Datatypes.length w <= f)%nat -> remove_all f (dotted e) c w = w.
Proof.
  intros w c f W L. pose proof (remove_copy _ _ (skip_first (fun c => code c =? 46)%Z e) w c [] f W L) as G. rewrite app_nil_r in G. fold (dotted e) in G. rewrite G.
  destruct (f - Datatypes.length w)%nat; cbn; apply app_nil_r.
Qed.
Lemma remove_dotted e name ext : no_dot name -> all not_dot ext ->
  regex_remove (dotted e) (name ++ "."%char :: ext) =
  match dotted e (rev name, "."%char :: ext) with [] => name ++ "."%char :: ext | q :: _ => name ++ remove_all (S (Datatypes.length ext)) (dotted e) (fst q) (snd q) end.
Proof.
  intros N X. unfold regex_remove. set (F := S _).
  assert (HF : (F = Datatypes.length name + S (S (Datatypes.length ext)))%nat) by (unfold F; rewrite app_length; cbn [Datatypes.length]; lia).
  pose proof (remove_copy _ _ (skip_first (fun c => code c =? 46)%Z e) name [] ("."%char :: ext) F (no_dot_all _ N) ltac:(lia)) as G. fold (dotted e) in G. rewrite G. clear G.
  replace (F - Datatypes.length name)%nat with (S (S (Datatypes.length ext))) by lia. rewrite app_nil_r. set (g := S (Datatypes.length ext)). cbn [remove_all].
  destruct (dotted e (rev name, "."%char :: ext)) as [|q l].
  - rewrite (remove_rest e ext) by (try exact X; unfold g; lia). reflexivity.
  - reflexivity.
Qed.
Lemma ext3_first c a b d r : is_word a = true -> is_word b = true -> is_word d = true -> exists q, rx_ext3 (c, "."%char :: a :: b :: d :: r) = [(q, r)].
Proof. intros A B D. unfold rx_ext3, rx_seq, rx_chr. cbn [snd fst flat_map app]. change (code "."%char =? 46)%Z with true. cbn [flat_map app snd fst]. rewrite A. cbn [flat_map app snd fst]. rewrite B. cbn [flat_map app snd fst]. rewrite D. cbn [flat_map app snd fst]. eexists. reflexivity. Qed.
Lemma skipn_le {A} k (l : list A) : (Datatypes.length (skipn k l) <= Datatypes.length l)%nat.
Proof. rewrite skipn_length. lia. Qed.
Lemma skipn_In {A} k (l : list A) x : In x (skipn k l) -> In x l.
Proof. intros H. rewrite <- (firstn_skipn k l). apply in_or_app. right. exact H. Qed.

Lemma remove_ext3 name ext : no_dot name -> (forall c, In c ext -> word_char c) ->
  regex_remove rx_ext3 (name ++ "."%char :: ext) = if (Datatypes.length ext <? 3)%nat then name ++ "."%char :: ext else name ++ skipn 3 ext.
Proof.
  intros N X. pose proof (word_not_dot _ X) as ND. unfold rx_ext3. match goal with |- regex_remove (rx_seq _ ?t) _ = _ => set (e := t) end. change (rx_seq _ e) with (dotted e).
  rewrite (remove_dotted e name ext N ND). destruct ext as [|a [|b [|d r]]].
  - reflexivity.
  - unfold dotted, e, rx_seq, rx_chr; cbn; rewrite ?(proj2 (word_char_iff a)) by (apply X; left; reflexivity); reflexivity.
  - unfold dotted, e, rx_seq, rx_chr; cbn. rewrite (proj2 (word_char_iff a)) by (apply X; left; reflexivity). cbn. rewrite (proj2 (word_char_iff b)) by (apply X; right; left; reflexivity). reflexivity.
  - destruct (ext3_first (rev name) a b d r) as (q & E); try (apply word_char_iff, X; cbn; tauto). change (dotted e) with rx_ext3 at 1. rewrite E. cbn [fst snd skipn Datatypes.length Nat.ltb Nat.leb]. f_equal. apply remove_rest; [|cbn; lia].
    intros c I. apply ND. right; right; right; exact I.
Qed.
Lemma ext35_first c a b d r : is_word a = true -> is_word b = true -> is_word d = true -> all is_word r -> exists q l, rx_ext35 (c, "."%char :: a :: b :: d :: r) = (q, skipn 2 r) :: l.
Proof.
  intros A B D W. unfold rx_ext35, rx_seq, rx_chr. cbn [snd fst flat_map app]. change (code "."%char =? 46)%Z with true. cbn [flat_map app snd fst]. rewrite A. cbn [flat_map app snd fst]. rewrite B. cbn [flat_map app snd fst]. rewrite D. cbn [flat_map app snd fst rx_upto].
  unfold rx_opt, rx_seq, rx_chr. destruct r as [|x [|y r]]; cbn [snd fst flat_map app skipn].
  - eauto.
  - rewrite (W x) by (left; reflexivity). cbn [snd fst flat_map app]. eauto.
  - rewrite (W x) by (left; reflexivity). cbn [snd fst flat_map app]. rewrite (W y) by (right; left; reflexivity). cbn [snd fst flat_map app]. eauto.
Qed.
Lemma remove_ext35 name ext : no_dot name -> (forall c, In c ext -> word_char c) ->
  regex_remove rx_ext35 (name ++ "."%char :: ext) = if (Datatypes.length ext <? 3)%nat then name ++ "."%char :: ext else name ++ skipn 5 ext.
Proof.
  intros N X. pose proof (word_not_dot _ X) as ND. unfold rx_ext35. match goal with |- regex_remove (rx_seq _ ?t) _ = _ => set (e := t) end. change (rx_seq _ e) with (dotted e).
  rewrite (remove_dotted e name ext N ND). destruct ext as [|a [|b [|d r]]].
  - reflexivity.
  - unfold dotted, e, rx_seq, rx_chr; cbn; rewrite ?(proj2 (word_char_iff a)) by (apply X; left; reflexivity); reflexivity.
  - unfold dotted, e, rx_seq, rx_chr; cbn. rewrite (proj2 (word_char_iff a)) by (apply X; left; reflexivity). cbn. rewrite (proj2 (word_char_iff b)) by (apply X; right; left; reflexivity). reflexivity.
  - destruct (ext35_first (rev name) a b d r) as (q & l & E); try (apply word_char_iff, X; cbn; tauto). { intros c I. apply word_char_iff, X. cbn; tauto. }
    change (dotted e) with rx_ext35 at 1. rewrite E. change (skipn 5 (a :: b :: d :: r)) with (skipn 2 r). cbn [fst snd Datatypes.length Nat.ltb Nat.leb]. f_equal. apply remove_rest; [|pose proof (skipn_le 2 r); cbn [Datatypes.length]; lia].
    intros c I. apply ND. right; right; right. exact (skipn_In _ _ _ I).
Qed.

Lemma set_moment_length (d : legd R) l v : l <> 0%nat -> Datatypes.length (lg_a (fst (set_moment d l v))) = Nat.max (Datatypes.length (lg_a d)) (S l).
Proof.
  intros H. destruct l as [|l]; [congruence|]. cbn [set_moment fst lg_a].
  assert (U : forall (w : list R) j b, Datatypes.length (upd_nat w j b) = Datatypes.length w). { induction w as [|h t IH]; intros [|j] b; cbn; try reflexivity. f_equal. apply IH. }
  rewrite U. destruct (Nat.leb_spec (Datatypes.length (lg_a d)) (S l)); [rewrite app_length, repeat_length|]; lia.
Qed.
Lemma table_code_spec (a : ace R) i c : xss_u32 a i = Ok c -> (c = 1%Z -> table_code a i = Ok Histogram) /\ (c = 2%Z -> table_code a i = Ok LinLin) /\ (c <> 1%Z -> c <> 2%Z -> table_code a i = Throw).
Proof. intros H. unfold table_code. rewrite H. cbn [bind]. repeat split; [intros ->; reflexivity|intros ->; reflexivity|]. intros H1 H2. destruct (Z.eqb_spec c 1); [contradiction|]. destruct (Z.eqb_spec c 2); [contradiction|reflexivity]. Qed.
