(** * Which storage is alive, exactly: reachable heaps *)
From Coq Require Import Lia List Arith.
From Verif Require Import Base M_Span L_Span.
Import ListNotations.

Record owned_heap (h : heap) : Prop := {
  oh_live : forall b, live h b = true <-> exists i d, objs h i = Some d /\ own d = b;
  oh_one : forall i j d e, objs h i = Some d -> objs h j = Some e -> own d = own e -> i = j;
  oh_next : forall i d, objs h i = Some d -> i < next h /\ own d < next h }.
Lemma owned_next h b : owned_heap h -> next h <= b -> live h b = false.
Proof.
  intros [L _ N] B. destruct (live h b) eqn:E; [|reflexivity]. apply L in E as (i & d & Ei & <-). apply N in Ei. lia.
Qed.
Lemma owned0 : owned_heap heap0.
Proof. constructor; cbn; try discriminate. intros b. split; [discriminate|]. intros (i & d & E & _). discriminate. Qed.
Ltac ups := repeat match goal with |- context [upd _ ?k _ ?n] => destruct (Nat.eq_dec n k) as [->|]; [rewrite upd_same|rewrite upd_other by assumption] | H : context [upd _ ?k _ ?n] |- _ => destruct (Nat.eq_dec n k) as [->|]; [rewrite upd_same in H|rewrite upd_other in H by assumption] end.
Lemma owned_new h v l : owned_heap h -> owned_heap (mkHeap (S (next h)) (upd (objs h) (next h) (Some (mkObj (next h) v l))) (upd (live h) (next h) true)).
Proof.
  intros [L O N]. constructor; cbn.
  - intros b. split.
    + intros H. ups. { eexists. eexists. rewrite upd_same. split; reflexivity. } apply L in H as (i & d & Ei & E). exists i, d. split; [|exact E]. pose proof (N _ _ Ei). rewrite upd_other by lia. exact Ei.
    + intros (i & d & Ei & <-). ups; try reflexivity; try (injection Ei as <-; cbn in *; congruence). apply L. eauto.
  - intros i j d e Hi Hj E. ups; try congruence; try (injection Hi as <-; cbn in E; apply N in Hj; lia); try (injection Hj as <-; cbn in E; apply N in Hi; lia). eapply O; eauto.
  - intros i d Hi. ups; [injection Hi as <-; cbn; lia|]. apply N in Hi. lia.
Qed.
Lemma owned_assign h dst d s r : owned_heap h -> objs h dst = Some d -> owned_heap (assign h dst d s r).
Proof.
  intros [L O N] D. unfold assign. destruct r; constructor; cbn.
  - intros b. split.
    + intros H. ups; try discriminate. { exists dst. eexists. rewrite upd_same. split; reflexivity. } apply L in H as (i & e & Ei & E). exists i, e. split; [|exact E].
      destruct (Nat.eq_dec i dst) as [->|]; [congruence|]. rewrite upd_other by assumption. exact Ei.
    + intros (i & e & Ei & <-). destruct (Nat.eq_dec i dst) as [->|Ni]; [rewrite upd_same in Ei; injection Ei as <-; cbn; rewrite upd_same; reflexivity|]. rewrite upd_other in Ei by assumption.
      pose proof (N _ _ Ei). rewrite upd_other by lia. rewrite upd_other. { apply L. eauto. } intros E. apply Ni. eapply O; eauto.
  - intros i j e e' Hi Hj E. ups; try congruence; try (injection Hi as <-; cbn in E; apply N in Hj; lia); try (injection Hj as <-; cbn in E; apply N in Hi; lia). eapply O; eauto.
  - intros i e Hi. pose proof (N _ _ D). ups; [injection Hi as <-; cbn; lia|]. apply N in Hi. lia.
  - intros b. rewrite L. split; intros (i & e & Ei & <-).
    + destruct (Nat.eq_dec i dst) as [->|]. { exists dst. eexists. rewrite upd_same. split; [reflexivity|]. cbn. congruence. } exists i, e. rewrite upd_other by assumption. auto.
    + ups; [injection Ei as <-; cbn; eauto|eauto].
  - intros i j e e' Hi Hj E. ups; try congruence; try (injection Hi as <-); try (injection Hj as <-); cbn in E; eapply O; eauto.
  - intros i e Hi. ups; [injection Hi as <-; cbn; eauto|eauto].
Qed.
Lemma owned_step h o h' : owned_heap h -> step h o = Ok h' -> owned_heap h'.
Proof.
  intros H. destruct o as [l|src|dst src r|i r|i|i]; cbn [step].
  - intros E. injection E as <-. apply owned_new, H.
  - destruct (objs h src) as [s|]; [|discriminate]. intros E. injection E as <-. apply owned_new, H.
  - destruct (objs h dst) as [d|] eqn:D; [|discriminate]. destruct (objs h src) as [s|]; [|discriminate]. destruct (Nat.eqb dst src); intros E; injection E as <-; [exact H|apply owned_assign; assumption].
  - destruct (objs h i) as [d|] eqn:D; [|discriminate]. destruct (lin d). { intros E. injection E as <-. exact H. } destruct (negb _); [discriminate|]. intros E. injection E as <-.
    set (b := next h). (* the temporary new_tab is never stored under an object id *)
    pose proof (owned_next h b H (le_n _)) as Fb. destruct H as [L O N]. pose proof (N _ _ D) as Nd. unfold assign. destruct r; cbn.
    + constructor; cbn.
      * intros c. split.
        -- intros X. ups; try discriminate; try congruence; try (exists i; eexists; rewrite upd_same; split; reflexivity). apply L in X as (j & e & Ej & <-). exists j, e. split; [|reflexivity]. destruct (Nat.eq_dec j i) as [->|]; [congruence|]. rewrite upd_other by assumption. exact Ej.
        -- intros (j & e & Ej & <-). destruct (Nat.eq_dec j i) as [->|Nj]. { rewrite upd_same in Ej. injection Ej as <-. cbn. rewrite upd_other by (unfold b; lia). rewrite upd_same. reflexivity. }
           rewrite upd_other in Ej by assumption. pose proof (N _ _ Ej). rewrite upd_other by (unfold b; lia). rewrite upd_other by (unfold b; lia). rewrite upd_other. { rewrite upd_other by (unfold b; lia). apply L. eauto. } intros X. apply Nj. eapply O; eauto.
      * intros j k e e' Hj Hk E. ups; try congruence; try (injection Hj as <-; cbn in E; apply N in Hk; unfold b in *; lia); try (injection Hk as <-; cbn in E; apply N in Hj; unfold b in *; lia). eapply O; eauto.
      * intros j e Hj. ups; [injection Hj as <-; cbn; unfold b; lia|]. apply N in Hj. unfold b. lia.
    + constructor; cbn.
      * intros c. split.
        -- intros X. ups; try discriminate; try congruence. apply L in X as (j & e & Ej & <-). destruct (Nat.eq_dec j i) as [->|]. { exists i. eexists. rewrite upd_same. split; [reflexivity|]. cbn. congruence. } exists j, e. rewrite upd_other by assumption. auto.
        -- intros (j & e & Ej & <-). assert (X : exists e0, objs h j = Some e0 /\ own e0 = own e). { destruct (Nat.eq_dec j i) as [->|]; [rewrite upd_same in Ej; injection Ej as <-; cbn; eauto|rewrite upd_other in Ej by assumption; eauto]. } destruct X as (e0 & X1 & <-). pose proof (N _ _ X1). rewrite upd_other by (unfold b; lia). rewrite upd_other by (unfold b; lia). apply L. eauto.
      * intros j k e e' Hj Hk E. assert (X : forall j e, upd (objs h) i (Some (mkObj (own d) b true)) j = Some e -> exists e0, objs h j = Some e0 /\ own e0 = own e). { intros j0 e0 He. destruct (Nat.eq_dec j0 i) as [->|]; [rewrite upd_same in He; injection He as <-; cbn; eauto|rewrite upd_other in He by assumption; eauto]. }
        destruct (X _ _ Hj) as (e0 & X1 & X2), (X _ _ Hk) as (e1 & X3 & X4). eapply O; eauto. congruence.
      * intros j e Hj. ups; [injection Hj as <-; cbn; unfold b; lia|]. apply N in Hj. unfold b. lia.
  - destruct (objs h i) as [d|] eqn:D; [|discriminate]. intros E. injection E as <-. destruct H as [L O N]. constructor; cbn.
    + intros b. split.
      * intros X. ups; try discriminate. apply L in X as (j & e & Ej & <-). exists j, e. split; [|reflexivity]. destruct (Nat.eq_dec j i) as [->|]; [congruence|]. rewrite upd_other by assumption. exact Ej.
      * intros (j & e & Ej & <-). destruct (Nat.eq_dec j i) as [->|Nj]; [rewrite upd_same in Ej; discriminate|]. rewrite upd_other in Ej by assumption. rewrite upd_other. { apply L. eauto. } intros X. apply Nj. eapply O; eauto.
    + intros j k e e' Hj Hk E. ups; try discriminate. eapply O; eauto.
    + intros j e Hj. ups; try discriminate. eapply N; eauto.
  - destruct (objs h i) as [d|]; [|discriminate]. destruct (live h (view d)); [|discriminate]. intros E. injection E as <-. exact H.
Qed.
Lemma owned_run : forall os h h', owned_heap h -> run h os = Ok h' -> owned_heap h'.
Proof.
  induction os as [|o os IH]; intros h h' H E; cbn [run] in E; [injection E as <-; exact H|]. destruct (step h o) as [h1| | |] eqn:S1; cbn [bind] in E; try discriminate.
  eapply IH; [eapply owned_step; eauto|exact E].
Qed.
(** evaluating an object is defined exactly if the storage its spans point into still belongs to an existing object *)
Lemma eval_iff os h i d : run heap0 os = Ok h -> objs h i = Some d ->
  (step h (Eval i) = Ok h <-> exists j e, objs h j = Some e /\ own e = view d) /\ (step h (Eval i) = UB <-> ~ exists j e, objs h j = Some e /\ own e = view d).
Proof.
  intros R D. pose proof (owned_run os heap0 h owned0 R) as [L _ _]. specialize (L (view d)). cbn [step]. rewrite D.
  destruct (live h (view d)).
  - split; split; [intros _; apply L; reflexivity|reflexivity|discriminate|intros X; exfalso; apply X, L; reflexivity].
  - split; split; [discriminate|intros X; apply L in X; discriminate|intros _ X; apply L in X; discriminate|reflexivity].
Qed.
(** objects: construction views its own storage, a copy views what its source views *)
Lemma views h : (forall l, exists h', step h (New l) = Ok h' /\ objs h' (next h) = Some (mkObj (next h) (next h) l)) /\
  (forall src s, objs h src = Some s -> exists h', step h (Copy src) = Ok h' /\ objs h' (next h) = Some (mkObj (next h) (view s) (lin s))) /\
  (forall dst src r d s, objs h dst = Some d -> objs h src = Some s -> dst <> src -> exists h' b, step h (Assign dst src r) = Ok h' /\ objs h' dst = Some (mkObj b (view s) (lin s))).
Proof.
  split; [|split].
  - intros l. eexists. split; [reflexivity|]. cbn. apply upd_same.
  - intros src s E. cbn [step]. rewrite E. eexists. split; [reflexivity|]. cbn. apply upd_same.
  - intros dst src r d s E1 E2 Ne. cbn [step]. rewrite E1, E2. apply Nat.eqb_neq in Ne. rewrite Ne. unfold assign. destruct r; eexists; eexists; (split; [reflexivity|]); cbn; apply upd_same.
Qed.
