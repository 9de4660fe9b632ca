(** * PCTable: which accepted tables can be sampled safely (any ordered arithmetic) *)
From Verif Require Import Base L_Search M_Interp M_PC.
From Coq Require Import ZifyBool ZifyNat.
Local Open Scope Z_scope.

Lemma upd_nat_length {A} (v : list A) : forall i a, length (upd_nat v i a) = length v.
Proof. induction v; intros [|i] b; cbn; auto. Qed.
Lemma nth_upd_same {A} (v : list A) : forall i a, (i < length v)%nat -> nth_error (upd_nat v i a) i = Some a.
Proof. induction v; intros [|i] b H; cbn in *; try lia; [reflexivity|]. apply IHv; lia. Qed.
Lemma nth_upd_other {A} (v : list A) : forall i j a, i <> j -> nth_error (upd_nat v i a) j = nth_error v j.
Proof. induction v; intros [|i] [|j] b H; cbn in *; try reflexivity; try lia. apply IHv; lia. Qed.
Lemma setZ_ok {A} (v : list A) i a : 0 <= i < sizeZ v -> exists w, setZ v i a = Ok w /\ sizeZ w = sizeZ v /\ atZ w i = Ok a /\
  forall j, j <> i -> atZ w j = atZ v j.
Proof.
  intros H. unfold setZ. replace ((0 <=? i) && (i <? sizeZ v))%bool with true by lia.
  eexists. split; [reflexivity|]. unfold sizeZ in *. rewrite upd_nat_length. split; [reflexivity|]. unfold atZ. split.
  - replace (0 <=? i) with true by lia. rewrite nth_upd_same by lia. reflexivity.
  - intros j Hj. destruct (0 <=? j) eqn:E; [|reflexivity]. rewrite nth_upd_other by lia. reflexivity.
Qed.

Lemma guard_ok b u : guard b = Ok u -> b = true.
Proof. destruct b; [reflexivity|discriminate]. Qed.

Section Part.
  Context {T : Type} {N : Num T}.
  (** std::lower_bound finds the partition point; no order law is needed *)
  Lemma lower_bound_loop_part v x k : is_lower_bound v x k -> forall fuel first len, (Z.to_nat len < fuel)%nat -> 0 <= first -> 0 <= len ->
    first + len <= sizeZ v -> first <= k <= first + len -> lower_bound_loop fuel v first len x = Ok k.
  Proof.
    intros (K0 & K1 & K2). induction fuel as [|f IH]; intros first len Hf H0 Hl Hs Hk; [lia|].
    cbn [lower_bound_loop]. destruct (len <=? 0) eqn:E; [f_equal; lia|].
    pose proof (Z.div_mod len 2 ltac:(lia)). pose proof (Z.mod_pos_bound len 2 ltac:(lia)).
    set (half := len / 2) in *. destruct (atZ_ok v (first + half)) as [m Hm]; [lia|]. rewrite Hm. cbn [bind].
    destruct (nltb m x) eqn:C.
    - destruct (Z_le_dec k (first + half)); [specialize (K2 _ _ l Hm); congruence|]. apply IH; lia.
    - destruct (Z_lt_dec (first + half) k); [specialize (K1 _ _ l Hm); congruence|]. apply IH; lia.
  Qed.
  Lemma lower_bound_part v x k : is_lower_bound v x k -> lower_bound v x = Ok k.
  Proof. intros H. apply (lower_bound_loop_part v x k H); destruct H as (K & _); unfold sizeZ in *; lia. Qed.
End Part.

Section PCG.
  Context {T : Type} {N : Num T} (P : T -> Prop) (O : NumOrder N P).
  Hypothesis P1 : P (nofZ 1).

  Record accepted (values pdf cdf : list T) (i : interpolation) (t : pctable T) : Prop := {
    ac_values : pc_values t = values; ac_pdf : pc_pdfs t = pdf; ac_interp : pc_interp t = i;
    ac_tab : table_interp i = true;
    ac_n : 1 <= sizeZ values; ac_n1 : sizeZ pdf = sizeZ values; ac_n2 : sizeZ cdf = sizeZ values; ac_n3 : sizeZ (pc_cdf t) = sizeZ values;
    ac_sv : is_sorted values = true; ac_sc : is_sorted cdf = true;
    ac_same : forall j, j <> sizeZ values - 1 -> atZ (pc_cdf t) j = atZ cdf j;
    ac_last : exists c, atZ (pc_cdf t) (sizeZ values - 1) = Ok c /\ (c = nofZ 1 \/ (atZ cdf (sizeZ values - 1) = Ok c /\ neqb c (nofZ 1) = true /\ pc_cdf t = cdf));
    ac_pos : forall p, In p pdf -> nltb p (nofZ 0) = false }.

  Lemma make_pc_accepted values pdf cdf i t : make_pc values pdf cdf i = Ok t -> accepted values pdf cdf i t.
  Proof.
    unfold make_pc. intros H.
    apply bind_ok in H as (? & G1 & H). apply guard_ok in G1.
    apply bind_ok in H as (? & G2 & H). apply guard_ok in G2. apply andb_true_iff in G2 as [L1 L2]. apply Nat.eqb_eq in L1, L2.
    apply bind_ok in H as (? & G3 & H). apply guard_ok in G3. apply negb_true_iff, Nat.eqb_neq in G3.
    apply bind_ok in H as (? & G4 & H). apply guard_ok in G4.
    apply bind_ok in H as (? & G5 & H). apply guard_ok in G5.
    apply bind_ok in H as (cdf' & F & H).
    apply bind_ok in H as (? & G6 & H). apply guard_ok in G6. apply negb_true_iff in G6. injection H as <-. cbn.
    assert (Hn : 1 <= sizeZ values) by (unfold sizeZ; lia).
    assert (Hc : sizeZ cdf = sizeZ values) by (unfold sizeZ; lia).
    assert (F' : sizeZ cdf' = sizeZ values /\ (forall j, j <> sizeZ values - 1 -> atZ cdf' j = atZ cdf j) /\
       exists c, atZ cdf' (sizeZ values - 1) = Ok c /\ (c = nofZ 1 \/ (atZ cdf (sizeZ values - 1) = Ok c /\ neqb c (nofZ 1) = true /\ cdf' = cdf))).
    { unfold fix_last in F. rewrite Hc in F. apply bind_ok in F as (c & Ec & F).
      destruct (neqb c (nofZ 1)) eqn:Q; cbn [negb] in F.
      - injection F as <-. split; [exact Hc|]. split; [reflexivity|]. exists c. split; [exact Ec|]. right; auto.
      - destruct (nltb _ _) in F; [|discriminate].
        destruct (setZ_ok cdf (sizeZ values - 1) (nofZ 1)) as (w & Ew & W1 & W2 & W3); [lia|]. rewrite Ew in F. injection F as <-.
        split; [lia|]. split; [exact W3|]. eexists. split; [exact W2|]. left; reflexivity. }
    destruct F' as (F1 & F2 & F3).
    split; cbn; try assumption; try reflexivity; try (unfold sizeZ; lia).
    intros p Hp. destruct (nltb p (nofZ 0)) eqn:Q; [|reflexivity].
    assert (existsb (fun p => nltb p (nofZ 0)) pdf = true) by (apply existsb_exists; eauto). congruence.
  Qed.

  Lemma no_le_lt x y z : P x -> P y -> P z -> nltb y x = false -> nltb y z = true -> nltb x z = true.
  Proof.
    intros Px Py Pz H1 H2. destruct (nltb x z) eqn:E; [reflexivity|].
    assert (nltb y z = false) by (eapply (no_negtrans O) with (y := x); eauto). congruence.
  Qed.
  (** the stored cdf is partitioned by every xi below 1 *)
  Lemma accepted_lookup values pdf cdf i t xi : accepted values pdf cdf i t -> Forall P cdf -> P xi -> nltb xi (nofZ 1) = true ->
    exists k, is_lower_bound (pc_cdf t) xi k /\ lower_bound (pc_cdf t) xi = Ok k /\ 0 <= k < sizeZ values.
  Proof.
    intros A F Px H1. destruct (lower_bound_spec P O cdf xi F Px (ac_sc _ _ _ _ _ A)) as (k0 & _ & K0 & K1 & K2).
    pose proof (ac_n _ _ _ _ _ A) as Hn. pose proof (ac_n3 _ _ _ _ _ A) as Hn3. pose proof (ac_n2 _ _ _ _ _ A) as Hn2.
    destruct (ac_last _ _ _ _ _ A) as (c & Ec & Hc).
    assert (Lc : nltb c xi = false).
    { destruct Hc as [->|(Ec' & Q & _)].
      - destruct (nltb (nofZ 1) xi) eqn:E; [|reflexivity]. pose proof (no_trans O _ _ _ Px P1 Px H1 E). rewrite (no_irrefl O) in H by assumption. discriminate.
      - assert (Pc : P c) by (rewrite Forall_forall in F; eauto using atZ_In).
        rewrite (no_eqb O) in Q by assumption. apply andb_true_iff in Q as [Q1 Q2]. apply negb_true_iff in Q1.
        destruct (nltb c xi) eqn:E; [|reflexivity]. pose proof (no_trans O _ _ _ Pc Px P1 E H1). congruence. }
    assert (L : is_lower_bound (pc_cdf t) xi (Z.min k0 (sizeZ values - 1))).
    { split; [lia|]. split.
      - intros j a Hj Ha. rewrite (ac_same _ _ _ _ _ A) in Ha by lia. eapply K1; [|exact Ha]. lia.
      - intros j a Hj Ha. destruct (Z.eq_dec j (sizeZ values - 1)) as [->|Q]; [congruence|].
        rewrite (ac_same _ _ _ _ _ A) in Ha by lia. pose proof (atZ_inv _ _ _ Ha) as [? _]. eapply K2; [|exact Ha]. lia. }
    exists (Z.min k0 (sizeZ values - 1)). split; [exact L|]. split; [apply lower_bound_part, L|]. destruct L as (? & _). lia.
  Qed.

  Lemma accepted_P values pdf cdf i t c j : accepted values pdf cdf i t -> Forall P cdf -> atZ (pc_cdf t) j = Ok c -> P c.
  Proof.
    intros A F Ec. rewrite Forall_forall in F. destruct (Z.eq_dec j (sizeZ values - 1)) as [->|Q].
    - destruct (ac_last _ _ _ _ _ A) as (c' & E' & [->|(E2 & _)]); rewrite Ec in E'; injection E' as ->; [assumption|eauto using atZ_In].
    - rewrite (ac_same _ _ _ _ _ A) in Ec by assumption. eauto using atZ_In.
  Qed.

  (** sampling is safe exactly when xi is not below the first cdf entry *)
  Lemma sample_safe values pdf cdf i t xi c0 : make_pc values pdf cdf i = Ok t -> Forall P cdf -> P xi -> nltb xi (nofZ 1) = true ->
    atZ (pc_cdf t) 0 = Ok c0 ->
    (nltb xi c0 = false /\ exists v, pc_sample t xi = Ok v) \/ (nltb xi c0 = true /\ pc_sample t xi = UB).
  Proof.
    intros M F Px H1 E0. pose proof (make_pc_accepted _ _ _ _ _ M) as A.
    destruct (accepted_lookup _ _ _ _ _ xi A F Px H1) as (k & L & Ek & Hk).
    pose proof (ac_n1 _ _ _ _ _ A) as Hn1. pose proof (ac_n3 _ _ _ _ _ A) as Hn3.
    unfold pc_sample. rewrite Ek. cbn [bind]. destruct (atZ_ok (pc_cdf t) k) as [c Ec]; [lia|]. rewrite Ec. cbn [bind].
    assert (Pc : P c) by (eapply accepted_P; eauto). assert (Pc0 : P c0) by (eapply accepted_P; eauto).
    assert (Lc : nltb c xi = false) by (destruct L as (_ & _ & L); eapply L; [|exact Ec]; lia).
    destruct (Z.eq_dec k 0) as [->|Hk0].
    - rewrite E0 in Ec. injection Ec as <-. rewrite (no_eqb O) by assumption. rewrite Lc. cbn [negb].
      destruct (nltb xi c0) eqn:Q; cbn [negb andb].
      + right. split; [reflexivity|]. destruct (pc_interp t); unfold pc_histogram; rewrite ?(atZ_out _ (0 - 1)) by lia; reflexivity.
      + left. split; [reflexivity|]. apply atZ_ok. rewrite (ac_values _ _ _ _ _ A). lia.
    - left. split.
      + destruct L as (_ & L & _). specialize (L 0 c0 ltac:(lia) E0). destruct (nltb xi c0) eqn:Q; [|reflexivity].
        pose proof (no_trans O _ _ _ Px Pc0 Px Q L). rewrite (no_irrefl O) in H by assumption. discriminate.
      + destruct (neqb xi c); [apply atZ_ok; rewrite (ac_values _ _ _ _ _ A); lia|].
        rewrite <- (ac_values _ _ _ _ _ A) in Hk, Hn1, Hn3. rewrite <- (ac_pdf _ _ _ _ _ A) in Hn1.
        destruct (atZ_ok (pc_values t) (k - 1)) as [v1 V1]; [lia|]. destruct (atZ_ok (pc_values t) (k - 1 + 1)) as [v2 V2]; [lia|].
        destruct (atZ_ok (pc_pdfs t) (k - 1)) as [p1 Q1]; [lia|]. destruct (atZ_ok (pc_pdfs t) (k - 1 + 1)) as [p2 Q2]; [lia|].
        destruct (atZ_ok (pc_cdf t) (k - 1)) as [c1 C1]; [lia|].
        unfold pc_histogram, pc_linear. rewrite V1, V2, Q1, Q2, C1. cbn [bind].
        destruct (pc_interp t), (neqb p1 p2); eexists; reflexivity.
  Qed.

  (** evaluating the pdf is always safe *)
  Lemma pdf_safe values pdf cdf i t v : make_pc values pdf cdf i = Ok t -> Forall P values -> P v -> exists p, pc_pdf t v = Ok p.
  Proof.
    intros M F Pv. pose proof (make_pc_accepted _ _ _ _ _ M) as A.
    pose proof (ac_n1 _ _ _ _ _ A) as Hn1. pose proof (ac_n _ _ _ _ _ A) as Hn. pose proof (ac_values _ _ _ _ _ A) as Ev. pose proof (ac_pdf _ _ _ _ _ A) as Ep.
    unfold pc_pdf, pc_min, pc_max, frontR, backR. rewrite Ev, Ep.
    destruct (atZ_ok values 0) as [mn Emn]; [lia|]. destruct (atZ_ok values (sizeZ values - 1)) as [mx Emx]; [lia|]. rewrite Emn, Emx. cbn [bind].
    destruct (nltb v mn) eqn:C1; [eexists; reflexivity|]. destruct (nltb mx v) eqn:C2; [eexists; reflexivity|].
    destruct (lower_bound_spec P O values v F Pv (ac_sv _ _ _ _ _ A)) as (k & Ek & K0 & K1 & K2). rewrite Ek. cbn [bind].
    assert (Hk : k < sizeZ values). { destruct (Z_lt_dec k (sizeZ values)); [assumption|]. specialize (K1 (sizeZ values - 1) mx ltac:(lia) Emx). congruence. }
    destruct (atZ_ok values k) as [vk Evk]; [lia|]. rewrite Evk. cbn [bind].
    assert (PA : forall a j, atZ values j = Ok a -> P a) by (rewrite Forall_forall in F; eauto using atZ_In).
    destruct (neqb v vk) eqn:Q; [apply atZ_ok; lia|].
    assert (k <> 0).
    { intros ->. rewrite Emn in Evk. injection Evk as <-. rewrite (no_eqb O) in Q by eauto. rewrite C1, (K2 0 mn ltac:(lia) Emn) in Q. discriminate. }
    destruct (atZ_ok values (k - 1)) as [v1 V1]; [lia|]. destruct (atZ_ok values (k - 1 + 1)) as [v2 V2]; [lia|].
    destruct (atZ_ok pdf (k - 1)) as [p1 Q1]; [lia|]. destruct (atZ_ok pdf (k - 1 + 1)) as [p2 Q2]; [lia|].
    rewrite V1, V2, Q1, Q2. cbn [bind]. destruct (pc_interp t); eexists; reflexivity.
  Qed.
End PCG.
