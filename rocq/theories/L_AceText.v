(** * Lemmas: reading ASCII ACE files *)
From Coq Require Import Lia List ZArith Bool ZifyBool ZifyNat.
From Verif Require Import Base M_Grid M_Ident M_AceBin S_AceBin M_AceText S_AceText.
Import ListNotations.
Local Open Scope Z_scope.

Lemma white_space b : white b <-> is_space b = true.
Proof. unfold white, is_space. cbn. lia. Qed.
Lemma digit_digit b : digit b <-> is_digit b = true.
Proof. unfold digit, is_digit. lia. Qed.
Lemma white_not_digit b : white b -> is_digit b = false.
Proof. unfold white, is_digit. cbn. lia. Qed.

Lemma digits_value_acc ds : forall v, fold_left (fun v d => 10 * v + (d - 48)) ds v = v * 10 ^ Z.of_nat (length ds) + decimal ds.
Proof.
  induction ds as [|d r IH]; intro v; [cbn; lia|]. cbn [fold_left length decimal]. rewrite IH. rewrite Nat2Z.inj_succ, Z.pow_succ_r by lia. ring.
Qed.
Lemma digits_value_decimal ds : digits_value ds = decimal ds.
Proof. unfold digits_value. rewrite digits_value_acc. lia. Qed.

Lemma span_app ds t : Forall digit ds -> (match t with [] => True | b :: _ => is_digit b = false end) -> span_digits (ds ++ t) = (ds, t).
Proof.
  induction ds as [|d r IH]; intros H Ht.
  - cbn [app]. destruct t as [|b t']; [reflexivity|]. cbn [span_digits]. rewrite Ht. reflexivity.
  - inversion H as [|? ? H1 H2]; subst. cbn [app span_digits]. apply digit_digit in H1. rewrite H1, IH by assumption. reflexivity.
Qed.
Lemma ends_digit t : ends t -> match t with [] => True | b :: _ => is_digit b = false end.
Proof. destruct t; cbn; [trivial|apply white_not_digit]. Qed.
Lemma digit_not_sign d : digit d -> is_sign d = false.
Proof. unfold digit, is_sign. lia. Qed.
(** take the sign of a text whose next character is no sign *)
Lemma take_sign_app sg r : sign_opt sg -> (match r with [] => True | b :: _ => is_sign b = false end) -> take_sign (sg ++ r) = (sg, r).
Proof.
  intros [->|[->| ->]] H; [|reflexivity|reflexivity]. cbn [app]. destruct r as [|b r']; [reflexivity|]. cbn [take_sign]. rewrite H. reflexivity.
Qed.
Lemma scan_int_text w v t : int_text w v -> ends t -> scan_int (w ++ t) = (v, false, t).
Proof.
  intros (Hv & sg & ds & Hs & Hn & Hd & -> & Hval) Ht. unfold scan_int. rewrite <- app_assoc.
  rewrite take_sign_app; [|exact Hs|destruct ds as [|d ds']; [contradiction|]; inversion Hd; subst; apply digit_not_sign; assumption].
  rewrite span_app by (try assumption; apply ends_digit; exact Ht).
  destruct ds as [|d ds'] eqn:Eds; [contradiction|]. rewrite <- Eds in *. clear Eds d ds'. rewrite digits_value_decimal.
  assert (E : match sg with [45] => - decimal ds | _ => decimal ds end = v).
  { destruct Hval as [[-> Hne]|[-> ->]]; [|reflexivity]. destruct Hs as [->|[->| ->]]; try reflexivity. contradiction. }
  rewrite E. unfold is_int32 in Hv. replace (v <? - 2 ^ 31) with false by lia. replace (2 ^ 31 <=? v) with false by lia. reflexivity.
Qed.

(** ** gathering the characters of a double *)
Lemma gather_digits ds : forall m dec sci t, Forall digit ds ->
  gather m dec sci (ds ++ t) = let '(a, q) := gather (match ds with [] => m | _ => true end) dec sci t in (ds ++ a, q).
Proof.
  induction ds as [|d r IH]; intros m dec sci t H; [cbn [app]; destruct (gather m dec sci t); reflexivity|].
  inversion H as [|? ? H1 H2]; subst. cbn [app gather]. apply digit_digit in H1. rewrite H1, IH by assumption.
  replace (match r with [] => true | _ => true end) with true by (destruct r; reflexivity). destruct (gather true dec sci t). reflexivity.
Qed.
Lemma gather_ends m dec sci t : ends t -> gather m dec sci t = ([], t).
Proof.
  destruct t as [|b r]; [reflexivity|]. cbn [ends gather]. intro H. rewrite (white_not_digit b H).
  replace (b =? 46) with false by (unfold white in H; cbn in H; lia). replace ((b =? 101) || (b =? 69)) with false by (unfold white in H; cbn in H; lia). reflexivity.
Qed.
Lemma gather_e dec e x : (e = 101 \/ e = 69) -> gather true dec false (e :: x) =
  match x with
  | c :: r' => if is_sign c then let '(t, q) := gather true dec true r' in (e :: c :: t, q) else let '(t, q) := gather true dec true x in (e :: t, q)
  | [] => ([e], [])
  end.
Proof. intros [->| ->]; destruct x; reflexivity. Qed.
Lemma gather_exp dec e s d t : (e = 101 \/ e = 69) -> sign_opt s -> Forall digit d -> ends t -> gather true dec false (e :: s ++ d ++ t) = (e :: s ++ d, t).
Proof.
  intros He Hs Hd Ht. rewrite gather_e by assumption.
  assert (G : forall m dc, gather m dc true (d ++ t) = (d, t)).
  { intros m dc. rewrite gather_digits by assumption. rewrite gather_ends by assumption. rewrite app_nil_r. reflexivity. }
  destruct Hs as [->|[->| ->]].
  - cbn [app]. destruct (d ++ t) as [|c r] eqn:E.
    + apply app_eq_nil in E as [-> ->]. reflexivity.
    + assert (Hc : is_sign c = false).
      { destruct d as [|d0 d']; cbn [app] in E; [subst t; cbn in Ht; unfold white in Ht; cbn in Ht; unfold is_sign; lia|]. inversion E; subst. inversion Hd; subst. apply digit_not_sign. assumption. }
      rewrite Hc. rewrite G. reflexivity.
  - cbn [app]. replace (is_sign 43) with true by reflexivity. rewrite G. reflexivity.
  - cbn [app]. replace (is_sign 45) with true by reflexivity. rewrite G. reflexivity.
Qed.
Lemma float_gather w t : float_text w -> ends t -> exists sg tx, w = sg ++ tx /\ take_sign (w ++ t) = (sg, tx ++ t) /\ gather false false false (tx ++ t) = (tx, t) /\ tx <> [] /\ w <> [].
Proof.
  intros (sg & ip & fp & ex & Hs & Hi & Hf & (b & Hb & Hbd) & He & ->) Ht. exists sg, (ip ++ fp ++ ex).
  assert (Hne : ip ++ fp ++ ex <> []) by (intro E; rewrite app_assoc in E; apply app_eq_nil in E as [E _]; rewrite E in Hb; destruct Hb).
  split; [reflexivity|]. split; [|split; [|split; [exact Hne|intro E; apply app_eq_nil in E as [_ E]; exact (Hne E)]]].
  - rewrite <- app_assoc. apply take_sign_app; [exact Hs|]. destruct ip as [|d ip']; [|inversion Hi; subst; cbn; apply digit_not_sign; assumption].
    cbn [app]. destruct Hf as [->|(f & -> & _)]; [destruct Hb|]. reflexivity.
  - rewrite <- !app_assoc. rewrite gather_digits by assumption.
    assert (Hex : forall dec, gather true dec false (ex ++ t) = (ex, t)).
    { intro dec. destruct He as [->|(e & s & d & Hee & Hss & Hdd & ->)]; [cbn [app]; apply gather_ends; exact Ht|]. cbn [app]. rewrite <- app_assoc. apply gather_exp; assumption. }
    destruct Hf as [->|(f & -> & Hfd)].
    + cbn [app]. rewrite app_nil_r in Hb. destruct ip as [|d ip']; [destruct Hb|]. rewrite Hex. reflexivity.
    + cbn [app]. assert (G : forall m, (m = true \/ f <> []) -> gather m false false (46 :: f ++ ex ++ t) = (46 :: f ++ ex, t)).
      { intros m Hm. cbn [gather]. replace (is_digit 46) with false by reflexivity. cbn [Z.eqb Pos.eqb andb negb]. rewrite gather_digits by assumption.
        replace (match f with [] => m | _ => true end) with true by (destruct Hm as [->|Hm]; destruct f; try reflexivity; contradiction). rewrite Hex. reflexivity. }
      rewrite G; [reflexivity|]. destruct ip; [right|left; reflexivity]. cbn [app] in Hb. destruct Hb as [<-|Hb]; [unfold digit in Hbd; lia|]. intros ->. destruct Hb.
Qed.
Section Text.
  Variable strtod : list Z -> Z * bool.
  Lemma scan_double_text w v t : double_text strtod w v -> ends t -> scan_double strtod (w ++ t) = (v, false, t).
  Proof.
    intros [Hw Hv] Ht. destruct (float_gather w t Hw Ht) as (sg & tx & E & H1 & H2 & _). unfold scan_double. rewrite H1, H2. rewrite <- E, Hv. reflexivity.
  Qed.

  (** ** the stream between two numbers *)
  Definition st (t : list Z) : tstream := mkTs t (match t with [] => true | _ => false end) false.
  Lemma st_good t : t <> [] -> ts_good (st t) = true.
  Proof. destruct t; [contradiction|reflexivity]. Qed.
  Lemma skip_space_app g t : Forall white g -> skip_space (g ++ t) = skip_space t.
  Proof. induction 1 as [|b r H _ IH]; [reflexivity|]. cbn [app skip_space]. apply white_space in H. rewrite H. exact IH. Qed.
  Lemma extract_field (scan : list Z -> Z * bool * list Z) old g w v t : gap g -> w <> [] -> (match w with [] => True | b :: _ => is_space b = false end) ->
    scan (w ++ t) = (v, false, t) -> t_extract scan old (st (g ++ w ++ t)) = (v, st t).
  Proof.
    intros [Hg Hw] Hn Hh Hs. unfold t_extract. rewrite st_good by (destruct g; [contradiction|discriminate]). cbn [st ts_bytes]. rewrite skip_space_app by assumption.
    destruct w as [|b w']; [contradiction|]. cbn [app skip_space] in *. rewrite Hh. rewrite Hs. reflexivity.
  Qed.
  Lemma digit_not_space b : digit b -> is_space b = false.
  Proof. unfold digit, is_space. lia. Qed.
  Lemma int_text_head w v : int_text w v -> w <> [] /\ match w with [] => True | b :: _ => is_space b = false end.
  Proof.
    intros (_ & sg & ds & Hs & Hn & Hd & -> & _). destruct ds as [|d ds']; [contradiction|]. inversion Hd; subst.
    destruct Hs as [->|[->| ->]]; cbn [app]; (split; [discriminate|]); [apply digit_not_space; assumption|reflexivity|reflexivity].
  Qed.
  Lemma float_text_head w : float_text w -> w <> [] /\ match w with [] => True | b :: _ => is_space b = false end.
  Proof.
    intros (sg & ip & fp & ex & Hs & Hi & Hf & (b & Hb & Hbd) & He & ->).
    assert (H : ip ++ fp ++ ex <> [] /\ match ip ++ fp ++ ex with [] => True | b :: _ => is_space b = false end).
    { destruct ip as [|d ip']; [|inversion Hi; subst; cbn [app]; split; [discriminate|apply digit_not_space; assumption]].
      cbn [app] in *. destruct Hf as [->|(f & -> & _)]; [destruct Hb|]. cbn [app]. split; [discriminate|reflexivity]. }
    destruct Hs as [->|[->| ->]]; cbn [app]; [exact H|split; [discriminate|reflexivity]|split; [discriminate|reflexivity]].
  Qed.
  Lemma extract_int old g w v t : gap g -> int_text w v -> ends t -> t_extract scan_int old (st (g ++ w ++ t)) = (v, st t).
  Proof. intros Hg Hw Ht. destruct (int_text_head w v Hw). apply extract_field; try assumption. apply scan_int_text; assumption. Qed.
  Lemma extract_double old g w v t : gap g -> double_text strtod w v -> ends t -> t_extract (scan_double strtod) old (st (g ++ w ++ t)) = (v, st t).
  Proof. intros Hg Hw Ht. destruct (float_text_head w (proj1 Hw)). apply extract_field; try assumption. apply scan_double_text; assumption. Qed.

  Lemma gap_ends g t : gap g -> ends (g ++ t).
  Proof. intros [Hn Hg]. destruct g; [contradiction|]. inversion Hg; subst. cbn. assumption. Qed.
  Lemma written_ends {V} (P : list Z -> V -> Prop) vs x t : written P vs x -> ends t -> ends (x ++ t).
  Proof. intros H Ht. destruct H; [exact Ht|]. rewrite <- app_assoc. apply gap_ends. assumption. Qed.
  Lemma ints_text vs x t : written int_text vs x -> ends t -> t_ints (length vs) (st (x ++ t)) = (vs, st t).
  Proof.
    induction 1 as [|v vs g w x Hg Hw H IH]; intro Ht; [reflexivity|]. cbn [length t_ints]. rewrite <- !app_assoc.
    rewrite (extract_int 0 g w v (x ++ t)); [|assumption|assumption|eapply written_ends; eassumption]. rewrite IH by assumption. reflexivity.
  Qed.
  Lemma izaw_text junk vs x t : written (pair_text strtod) vs x -> ends t -> t_izaw strtod (length vs) junk (st (x ++ t)) = (vs, st t).
  Proof.
    induction 1 as [|v vs g w x Hg Hw H IH]; intro Ht; [reflexivity|]. cbn [length t_izaw]. destruct Hw as (w1 & g' & w2 & H1 & Hg' & H2 & ->). rewrite <- !app_assoc.
    rewrite (extract_int _ g w1 (fst v)); [|assumption|assumption|apply gap_ends; assumption].
    rewrite (extract_double _ g' w2 (snd v) (x ++ t)); [|assumption|assumption|eapply written_ends; eassumption]. rewrite IH by assumption. destruct v; reflexivity.
  Qed.
  Lemma xss_text vs x : written (double_text strtod) vs x -> forall m t, ends t -> t_xss strtod (length vs + m) (st (x ++ t)) = vs ++ t_xss strtod m (st t).
  Proof.
    induction 1 as [|v vs g w x Hg Hw H IH]; intros m t Ht; [reflexivity|]. cbn [length Nat.add t_xss app]. rewrite <- !app_assoc.
    replace (ts_eof (st (g ++ w ++ x ++ t))) with false by (destruct Hg as [Hg _]; destruct g; [contradiction|reflexivity]).
    rewrite (extract_double 0 g w v (x ++ t)); [|assumption|assumption|eapply written_ends; eassumption]. rewrite IH by assumption. reflexivity.
  Qed.
  (** the end of the file: nothing left, or only white space left *)
  Lemma xss_nothing m : t_xss strtod m (st []) = [].
  Proof. destruct m; reflexivity. Qed.
  Lemma xss_blank m g : gap g -> t_xss strtod (S m) (st g) = [0].
  Proof.
    intros [Hn Hg]. assert (E : skip_space g = []) by (rewrite <- (app_nil_r g); rewrite skip_space_app by assumption; reflexivity).
    cbn [t_xss]. unfold t_extract. rewrite st_good by assumption. cbn [st ts_bytes]. rewrite E. destruct g as [|b g']; [contradiction|]. cbn [st ts_eof]. destruct m; reflexivity.
  Qed.
  (** something that starts no number: zeros from there on *)
  Lemma xss_stuck m r : t_xss strtod m (mkTs r false true) = repeat 0 m.
  Proof. induction m as [|m IH]; [reflexivity|]. cbn [t_xss ts_eof]. unfold t_extract. cbn [ts_good ts_eof ts_fail negb andb ts_failed ts_bytes]. unfold ts_failed. cbn [ts_bytes ts_eof]. rewrite IH. reflexivity. Qed.
  Definition no_number (b : Z) : Prop := ~ white b /\ ~ digit b /\ b <> 43 /\ b <> 45 /\ b <> 46.
  Lemma xss_garbage m g b r : strtod [] = (0, true) -> gap g -> no_number b -> t_xss strtod m (st (g ++ b :: r)) = repeat 0 m.
  Proof.
    intros H0 [Hn Hg] (Hw & Hd & H1 & H2 & H3). destruct m as [|m]; [reflexivity|]. cbn [t_xss].
    replace (ts_eof (st (g ++ b :: r))) with false by (destruct g; [contradiction|reflexivity]). unfold t_extract. rewrite st_good by (destruct g; [contradiction|discriminate]).
    cbn [st ts_bytes]. rewrite skip_space_app by assumption. cbn [skip_space]. replace (is_space b) with false by (symmetry; apply not_true_is_false; rewrite <- white_space; exact Hw).
    unfold scan_double. cbn [take_sign]. replace (is_sign b) with false by (unfold is_sign; lia).
    cbn [gather]. replace (is_digit b) with false by (symmetry; apply not_true_is_false; rewrite <- digit_digit; exact Hd). replace (b =? 46) with false by lia.
    replace (((b =? 101) || (b =? 69)) && negb false && false) with false by (destruct ((b =? 101) || (b =? 69)); reflexivity). cbn [andb app]. rewrite H0.
    cbn [repeat]. f_equal. apply xss_stuck.
  Qed.

  (** ** the body *)
  Variable junk : nat -> Z * Z.
  Lemma body_text h izaw nxs jxs b t : arrays strtod izaw nxs jxs b -> ends t -> h_rest h = st (b ++ t) ->
    read_body strtod junk h =
      let n := nth 0 nxs 0 in
      if n <? 0 then Throw
      else let xss := t_xss strtod (Z.to_nat n) (st t) in
           if negb (sizeZ xss =? n) then Throw
           else let za := nth 1 nxs 0 mod 2 ^ 32 in
                let Z0 := (za / 1000) mod 256 in
                Ok (mkFile (mkZaid Z0 (wrap32 (za - Z0 * 1000))) (h_temp h) (h_awr h) (0 <? nth 1 jxs 0) (h_zaid_txt h) (h_date h) (h_comment h) (h_mat h) izaw nxs jxs xss).
  Proof.
    intros (L1 & L2 & L3 & t1 & t2 & t3 & W1 & W2 & W3 & ->) Ht E. unfold read_body. rewrite E, <- !app_assoc.
    assert (E3 : ends (t3 ++ t)) by (eapply written_ends; eassumption). assert (E2 : ends (t2 ++ t3 ++ t)) by (eapply written_ends; eassumption).
    pose proof (izaw_text junk izaw t1 _ W1 E2) as X1. rewrite L1 in X1. rewrite X1.
    pose proof (ints_text nxs t2 _ W2 E3) as X2. rewrite L2 in X2. rewrite X2.
    pose proof (ints_text jxs t3 _ W3 Ht) as X3. rewrite L3 in X3. rewrite X3. reflexivity.
  Qed.
End Text.
