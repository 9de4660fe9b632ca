(** * Lemmas on checked access, sortedness and std::lower_bound *)
From Verif Require Import Base.
From Coq Require Import ZifyBool ZifyNat.
Local Open Scope Z_scope.

Lemma atZ_inv {A} (v : list A) i a :
  atZ v i = Ok a -> 0 <= i < sizeZ v /\ nth_error v (Z.to_nat i) = Some a.
Proof.
  unfold atZ, sizeZ. destruct (0 <=? i) eqn:E; [|discriminate].
  destruct (nth_error v (Z.to_nat i)) eqn:F; [|discriminate].
  intros H; injection H as <-. split; [|reflexivity].
  assert (nth_error v (Z.to_nat i) <> None) as G by congruence.
  apply nth_error_Some in G. lia.
Qed.

Lemma atZ_ok {A} (v : list A) i : 0 <= i < sizeZ v -> exists a, atZ v i = Ok a.
Proof.
  unfold atZ, sizeZ; intros H. destruct (0 <=? i) eqn:E; [|lia].
  destruct (nth_error v (Z.to_nat i)) eqn:F; [eauto|].
  apply nth_error_None in F. lia.
Qed.

Lemma atZ_nth {A} (d : A) (v : list A) i : 0 <= i < sizeZ v -> atZ v i = Ok (nth (Z.to_nat i) v d).
Proof.
  intros H. unfold atZ. destruct (0 <=? i) eqn:E; [|lia].
  rewrite (nth_error_nth' v d); [reflexivity | unfold sizeZ in H; lia].
Qed.

Lemma atZ_out {A} (v : list A) i : ~ (0 <= i < sizeZ v) -> atZ v i = UB.
Proof.
  intros H. destruct (atZ v i) eqn:E; try reflexivity; [|unfold atZ in E|unfold atZ in E].
  - apply atZ_inv in E. tauto.
  - destruct (0 <=? i); [destruct nth_error|]; discriminate.
  - destruct (0 <=? i); [destruct nth_error|]; discriminate.
Qed.

Lemma atZ_In {A} (v : list A) i a : atZ v i = Ok a -> In a v.
Proof. intros H; apply atZ_inv in H as [_ H]. eapply nth_error_In; eauto. Qed.

Lemma In_atZ {A} (v : list A) a : In a v -> exists i, atZ v i = Ok a.
Proof.
  intros H. apply In_nth_error in H as [n Hn]. exists (Z.of_nat n).
  unfold atZ. rewrite Nat2Z.id, Hn. destruct (0 <=? Z.of_nat n) eqn:E; [reflexivity | lia].
Qed.

Lemma atZ_res {A} (v : list A) i : (exists a, atZ v i = Ok a) \/ atZ v i = UB.
Proof.
  destruct (Z_le_dec 0 i); [destruct (Z_lt_dec i (sizeZ v))|].
  - left; apply atZ_ok; lia.
  - right; apply atZ_out; lia.
  - right; apply atZ_out; lia.
Qed.

Lemma sizeZ_nonneg {A} (v : list A) : 0 <= sizeZ v.
Proof. unfold sizeZ; lia. Qed.

Lemma sizeZ_cons {A} (a : A) v : sizeZ (a :: v) = sizeZ v + 1.
Proof. unfold sizeZ; cbn [length]; lia. Qed.

Lemma atZ_cons_0 {A} (a : A) v : atZ (a :: v) 0 = Ok a.
Proof. reflexivity. Qed.

Lemma atZ_cons_S {A} (a : A) v i : 0 <= i -> atZ (a :: v) (i + 1) = atZ v i.
Proof.
  intros H. unfold atZ. replace (0 <=? i + 1) with true by lia. replace (0 <=? i) with true by lia.
  replace (Z.to_nat (i + 1)) with (S (Z.to_nat i)) by lia. reflexivity.
Qed.

Lemma atZ_map {A B} (f : A -> B) v i a : atZ v i = Ok a -> atZ (map f v) i = Ok (f a).
Proof.
  intros H. apply atZ_inv in H as [H1 H2]. unfold atZ. replace (0 <=? i) with true by lia.
  rewrite nth_error_map, H2. reflexivity.
Qed.

Lemma atZ_map_inv {A B} (f : A -> B) v i b : atZ (map f v) i = Ok b -> exists a, atZ v i = Ok a /\ b = f a.
Proof.
  intros H. apply atZ_inv in H as [H1 H2]. unfold atZ. replace (0 <=? i) with true by lia.
  rewrite nth_error_map in H2. destruct (nth_error v (Z.to_nat i)); [|discriminate].
  injection H2 as <-. eauto.
Qed.

Lemma atZ_app_l {A} (v w : list A) i : i < sizeZ v -> atZ (v ++ w) i = atZ v i.
Proof.
  intros H. unfold atZ. destruct (0 <=? i) eqn:E; [|reflexivity].
  rewrite nth_error_app1; [reflexivity | unfold sizeZ in H; lia].
Qed.

Lemma atZ_app_r {A} (v w : list A) i : sizeZ v <= i -> atZ (v ++ w) i = atZ w (i - sizeZ v).
Proof.
  intros H. unfold atZ, sizeZ in *.
  replace (0 <=? i) with true by lia.
  replace (0 <=? i - Z.of_nat (length v)) with true by lia.
  rewrite nth_error_app2 by lia.
  replace (Z.to_nat (i - Z.of_nat (length v))) with (Z.to_nat i - length v)%nat by lia. reflexivity.
Qed.

Lemma sizeZ_app {A} (v w : list A) : sizeZ (v ++ w) = sizeZ v + sizeZ w.
Proof. unfold sizeZ; rewrite app_length; lia. Qed.

Lemma sizeZ_map {A B} (f : A -> B) v : sizeZ (map f v) = sizeZ v.
Proof. unfold sizeZ; rewrite map_length; lia. Qed.

Lemma bind_ok {A B} (m : res A) (k : A -> res B) b :
  bind m k = Ok b -> exists a, m = Ok a /\ k a = Ok b.
Proof. destruct m; cbn; try discriminate; eauto. Qed.

Lemma rbind_ok {T A B} (m : rand T A) (k : A -> rand T B) ds r :
  rbind m k ds = Ok r -> exists a ds', m ds = Ok (a, ds') /\ k a ds' = Ok r.
Proof. unfold rbind; destruct (m ds) as [[a ds']| | |]; try discriminate; eauto. Qed.

Lemma rret_ok {T A} (a b : A) (ds ds' : list T) : rret a ds = Ok (b, ds') -> a = b /\ ds = ds'.
Proof. intros H. unfold rret in H. injection H; auto. Qed.
Lemma rlift_ok {T A} (m : res A) (b : A) (ds ds' : list T) : rlift m ds = Ok (b, ds') -> m = Ok b /\ ds = ds'.
Proof. unfold rlift. destruct m; cbn; try discriminate. intros H. injection H as -> ->; auto. Qed.
Lemma draw_ok {T} (ds ds' : list T) x : draw ds = Ok (x, ds') -> ds = x :: ds'.
Proof. destruct ds; cbn; [discriminate|]. intros H. injection H as -> ->. reflexivity. Qed.

Section Search.
  Context {T : Type} {N : Num T} (P : T -> Prop) (O : NumOrder N P).

  Lemma is_sorted_cons a b t : is_sorted (a :: b :: t) = negb (nltb b a) && is_sorted (b :: t).
  Proof. reflexivity. Qed.

  Lemma sorted_tail a t : is_sorted (a :: t) = true -> is_sorted t = true.
  Proof. destruct t; [reflexivity|]. rewrite is_sorted_cons. intros H; apply andb_true_iff in H; tauto. Qed.

  Lemma sorted_head a t : Forall P (a :: t) -> is_sorted (a :: t) = true ->
    forall b, In b t -> nltb b a = false.
  Proof.
    revert a. induction t as [|c t IH]; intros a F S b Hb; [easy|].
    rewrite is_sorted_cons in S. apply andb_true_iff in S as [S1 S2].
    apply negb_true_iff in S1.
    inversion F as [|? ? Pa F1]; subst. inversion F1 as [|? ? Pc F2]; subst.
    destruct Hb as [<-|Hb]; [exact S1|].
    assert (P b) by (rewrite Forall_forall in F2; auto).
    eapply (no_negtrans O) with (y := c); auto.
  Qed.

  Lemma sorted_le v : Forall P v -> is_sorted v = true ->
    forall i j a b, i <= j -> atZ v i = Ok a -> atZ v j = Ok b -> nltb b a = false.
  Proof.
    induction v as [|c v IH]; intros F S i j a b Hij Ha Hb.
    - apply atZ_inv in Ha as [Ha _]. cbn in Ha; lia.
    - pose proof (atZ_inv _ _ _ Ha) as [Hi _]. pose proof (atZ_inv _ _ _ Hb) as [Hj _].
      assert (P c) by (inversion F; auto).
      destruct (Z.eq_dec i 0) as [->|Hi0].
      + cbn in Ha. injection Ha as <-.
        destruct (Z.eq_dec j 0) as [->|Hj0].
        * cbn in Hb; injection Hb as <-. apply (no_irrefl O); auto.
        * replace j with ((j - 1) + 1) in Hb by lia. rewrite atZ_cons_S in Hb by lia.
          eapply sorted_head; eauto using atZ_In.
      + replace i with ((i - 1) + 1) in Ha by lia. rewrite atZ_cons_S in Ha by lia.
        replace j with ((j - 1) + 1) in Hb by lia. rewrite atZ_cons_S in Hb by lia.
        inversion F; subst.
        eapply (IH ltac:(assumption) (sorted_tail _ _ S) (i-1) (j-1)); eauto; lia.
  Qed.

  (** first index whose element is not less than x *)
  Definition is_lower_bound (v : list T) (x : T) (k : Z) : Prop :=
    0 <= k <= sizeZ v /\
    (forall i a, i < k -> atZ v i = Ok a -> nltb a x = true) /\
    (forall i a, k <= i -> atZ v i = Ok a -> nltb a x = false).

  Lemma lower_bound_loop_spec fuel v x : Forall P v -> P x -> is_sorted v = true ->
    forall first len, (Z.to_nat len < fuel)%nat -> 0 <= first -> 0 <= len -> first + len <= sizeZ v ->
    (forall i a, i < first -> atZ v i = Ok a -> nltb a x = true) ->
    (forall i a, first + len <= i -> atZ v i = Ok a -> nltb a x = false) ->
    exists k, lower_bound_loop fuel v first len x = Ok k /\ first <= k <= first + len /\
      is_lower_bound v x k.
  Proof.
    intros F Px S. induction fuel as [|f IH]; intros first len Hf H0 Hl Hs Hlo Hhi; [lia|].
    cbn [lower_bound_loop]. destruct (len <=? 0) eqn:E.
    - exists first. split; [reflexivity|]. split; [lia|]. split; [lia|]. split; [exact Hlo|].
      intros i a Hi. apply Hhi; lia.
    - pose proof (Z.div_mod len 2 ltac:(lia)). pose proof (Z.mod_pos_bound len 2 ltac:(lia)).
      set (half := len / 2) in *.
      destruct (atZ_ok v (first + half)) as [m Hm]; [lia|].
      rewrite Hm. cbn [bind].
      assert (Pm : P m) by (rewrite Forall_forall in F; eauto using atZ_In).
      destruct (nltb m x) eqn:C.
      + destruct (IH (first + half + 1) (len - half - 1)) as (k & K1 & K2 & K3); try lia.
        * intros i a Hi Ha. destruct (Z_le_dec first i).
          -- assert (Pa : P a) by (rewrite Forall_forall in F; eauto using atZ_In).
             destruct (nltb a x) eqn:D; [reflexivity|].
             assert (nltb m a = false) by (eapply sorted_le with (i := i) (j := first + half); eauto; lia).
             assert (nltb m x = false) by (eapply (no_negtrans O) with (y := a); eauto). congruence.
          -- apply (Hlo i); [lia | exact Ha].
        * intros i a Hi. apply Hhi; lia.
        * exists k. split; [exact K1|]. split; [lia | exact K3].
      + destruct (IH first half) as (k & K1 & K2 & K3); try lia.
        * exact Hlo.
        * intros i a Hi Ha.
          assert (Pa : P a) by (rewrite Forall_forall in F; eauto using atZ_In).
          assert (nltb a m = false) by (eapply sorted_le with (i := first + half) (j := i); eauto; lia).
          eapply (no_negtrans O) with (y := m); eauto.
        * exists k. split; [exact K1|]. split; [lia | exact K3].
  Qed.

  Lemma lower_bound_spec v x : Forall P v -> P x -> is_sorted v = true ->
    exists k, lower_bound v x = Ok k /\ is_lower_bound v x k.
  Proof.
    intros F Px S. unfold lower_bound.
    destruct (lower_bound_loop_spec (Datatypes.S (length v)) v x F Px S 0 (sizeZ v)) as (k & K1 & K2 & K3).
    - unfold sizeZ; lia.
    - lia.
    - apply sizeZ_nonneg.
    - lia.
    - intros i a Hi Ha. apply atZ_inv in Ha. lia.
    - intros i a Hi Ha. apply atZ_inv in Ha. lia.
    - eauto.
  Qed.

  Lemma is_lower_bound_unique v x k k' : is_lower_bound v x k -> is_lower_bound v x k' -> k = k'.
  Proof.
    intros (H1 & H2 & H3) (H1' & H2' & H3').
    destruct (Z.lt_trichotomy k k') as [L|[E|L]]; [|exact E|].
    - destruct (atZ_ok v k) as [a Ha]; [lia|].
      specialize (H2' _ _ L Ha). specialize (H3 k a (Z.le_refl _) Ha). congruence.
    - destruct (atZ_ok v k') as [a Ha]; [lia|].
      specialize (H2 _ _ L Ha). specialize (H3' k' a (Z.le_refl _) Ha). congruence.
  Qed.

  Lemma lower_bound_eq v x k : Forall P v -> P x -> is_sorted v = true ->
    is_lower_bound v x k -> lower_bound v x = Ok k.
  Proof.
    intros F Px S H. destruct (lower_bound_spec v x F Px S) as (k' & E & H').
    rewrite E. f_equal. eapply is_lower_bound_unique; eauto.
  Qed.

  (** the std::lower_bound on a subrange [lo,hi) of a sorted vector *)
  Lemma lower_bound_range_spec v x lo hi : Forall P v -> P x -> is_sorted v = true ->
    0 <= lo <= hi -> hi <= sizeZ v ->
    (forall i a, i < lo -> atZ v i = Ok a -> nltb a x = true) ->
    (forall i a, hi <= i -> atZ v i = Ok a -> nltb a x = false) ->
    exists k, lower_bound_range v lo hi x = Ok k /\ lo <= k <= hi /\ is_lower_bound v x k.
  Proof.
    intros F Px S H1 H2 Hlo Hhi. unfold lower_bound_range.
    assert (Hf : (Z.to_nat (hi - lo) < Datatypes.S (length v))%nat) by (unfold sizeZ in *; lia).
    assert (Hh : forall i a, lo + (hi - lo) <= i -> atZ v i = Ok a -> nltb a x = false)
      by (intros i a Hi; apply Hhi; lia).
    destruct (lower_bound_loop_spec (Datatypes.S (length v)) v x F Px S lo (hi - lo) Hf
      ltac:(lia) ltac:(lia) ltac:(lia) Hlo Hh) as (k & K1 & K2 & K3).
    exists k. split; [exact K1|]. split; [lia | exact K3].
  Qed.
End Search.
