From Verif Require Import Base M_Span L_Search.
From Coq Require Import Arith.

Lemma upd_same {A} (f : nat -> A) k a : upd f k a k = a.
Proof. unfold upd. rewrite Nat.eqb_refl. reflexivity. Qed.
Lemma upd_other {A} (f : nat -> A) k a n : n <> k -> upd f k a n = f n.
Proof. intros H. unfold upd. apply Nat.eqb_neq in H. rewrite H. reflexivity. Qed.

(** operations that neither copy spans between objects nor linearize *)
Definition no_copy (o : op) : Prop :=
  match o with New _ | Destroy _ | Eval _ => True | _ => False end.

Definition self_owned (h : heap) : Prop :=
  (forall i d, objs h i = Some d -> view d = own d /\ live h (own d) = true /\ own d < next h /\ i < next h) /\
  (forall i j d e, objs h i = Some d -> objs h j = Some e -> own d = own e -> i = j).

Lemma self_owned_step h o : self_owned h -> no_copy o -> step h o <> UB /\ (forall h', step h o = Ok h' -> self_owned h').
Proof.
  intros [H1 H2] Ho. destruct o as [l| | | |i|i]; try destruct Ho; cbn [step].
  - split; [discriminate|]. intros h' E; injection E as <-. split; cbn [objs live next].
    + intros i d Hd. destruct (Nat.eq_dec i (next h)) as [->|Hn].
      * rewrite upd_same in Hd. injection Hd as <-. cbn [view own]. rewrite upd_same. auto with arith.
      * rewrite upd_other in Hd by exact Hn. destruct (H1 _ _ Hd) as (A & B & C & D).
        rewrite upd_other by lia. auto with arith.
    + intros i j d e Hd He E.
      destruct (Nat.eq_dec i (next h)) as [->|Hi]; [rewrite upd_same in Hd|rewrite upd_other in Hd by exact Hi];
      (destruct (Nat.eq_dec j (next h)) as [->|Hj]; [rewrite upd_same in He|rewrite upd_other in He by exact Hj]).
      * reflexivity.
      * injection Hd as <-. cbn in E. destruct (H1 _ _ He) as (_ & _ & C & _). lia.
      * injection He as <-. cbn in E. destruct (H1 _ _ Hd) as (_ & _ & C & _). lia.
      * eauto.
  - destruct (objs h i) as [d|] eqn:Hd; [|split; discriminate].
    split; [discriminate|]. intros h' E; injection E as <-. split; cbn [objs live next].
    + intros j e He. destruct (Nat.eq_dec j i) as [->|Hn]; [rewrite upd_same in He; discriminate|].
      rewrite upd_other in He by exact Hn. destruct (H1 _ _ He) as (A & B & C & D).
      split; [exact A|]. split; [|auto]. rewrite upd_other; [exact B|].
      intros E. apply Hn. eapply H2; eauto.
    + intros j k e f He Hf E.
      destruct (Nat.eq_dec j i) as [->|Hj]; [rewrite upd_same in He; discriminate|].
      destruct (Nat.eq_dec k i) as [->|Hk]; [rewrite upd_same in Hf; discriminate|].
      rewrite upd_other in He, Hf by assumption. eauto.
  - destruct (objs h i) as [d|] eqn:Hd; [|split; discriminate].
    destruct (H1 _ _ Hd) as (A & B & _). rewrite A, B.
    split; [discriminate|]. intros h' E; injection E as <-. split; assumption.
Qed.

Lemma run_no_copy_safe : forall os, Forall no_copy os -> run heap0 os <> UB.
Proof.
  assert (G : forall os h, self_owned h -> Forall no_copy os -> run h os <> UB).
  { induction os as [|o os IH]; intros h Hh F; cbn [run]; [discriminate|].
    inversion F; subst. destruct (self_owned_step h o Hh H1) as [N S].
    destruct (step h o) as [h'| | |] eqn:E; cbn [bind]; try discriminate; [|congruence].
    apply IH; [apply S; reflexivity | assumption]. }
  intros os F. apply G; [|exact F]. split; intros; discriminate.
Qed.

(** copies are usable as long as nothing is destroyed, reallocated or linearized *)
Definition no_free (o : op) : Prop :=
  match o with New _ | Copy _ | Assign _ _ false | Eval _ => True | _ => False end.
Definition all_live (h : heap) : Prop :=
  forall i d, objs h i = Some d -> view d < next h /\ live h (view d) = true.

Lemma run_no_free_safe : forall os, Forall no_free os -> run heap0 os <> UB.
Proof.
  assert (G : forall os h, all_live h -> Forall no_free os -> run h os <> UB).
  { induction os as [|o os IH]; intros h Hh F; cbn [run]; [discriminate|].
    inversion F as [|? ? Ho F']; subst.
    assert (step h o <> UB /\ (forall h', step h o = Ok h' -> all_live h')) as [N S].
    { destruct o as [l|src|dst src b| | |i]; try destruct Ho; cbn [step].
      - split; [discriminate|]. intros h' E; injection E as <-. intros i d Hd; cbn [objs live next] in *.
        destruct (Nat.eq_dec i (next h)) as [->|Hn].
        + rewrite upd_same in Hd. injection Hd as <-. cbn. rewrite upd_same. auto with arith.
        + rewrite upd_other in Hd by exact Hn. destruct (Hh _ _ Hd). rewrite upd_other by lia. auto with arith.
      - destruct (objs h src) as [s|] eqn:Hs; [|split; discriminate].
        split; [discriminate|]. intros h' E; injection E as <-. intros i d Hd; cbn [objs live next] in *.
        destruct (Nat.eq_dec i (next h)) as [->|Hn].
        + rewrite upd_same in Hd. injection Hd as <-. cbn. destruct (Hh _ _ Hs). rewrite upd_other by lia. auto with arith.
        + rewrite upd_other in Hd by exact Hn. destruct (Hh _ _ Hd). rewrite upd_other by lia. auto with arith.
      - destruct b; [destruct Ho|].
        destruct (objs h dst) as [d|] eqn:Hd; [|split; discriminate].
        destruct (objs h src) as [s|] eqn:Hs; [|split; discriminate].
        destruct (Nat.eqb dst src).
        + split; [discriminate|]. intros h' E; injection E as <-. exact Hh.
        + split; [discriminate|]. intros h' E; injection E as <-. unfold assign. intros i e He; cbn [objs live next] in *.
          destruct (Nat.eq_dec i dst) as [->|Hn].
          * rewrite upd_same in He. injection He as <-. cbn. eauto.
          * rewrite upd_other in He by exact Hn. eauto.
      - destruct (objs h i) as [d|] eqn:Hd; [|split; discriminate].
        destruct (Hh _ _ Hd) as [_ B]. rewrite B. split; [discriminate|].
        intros h' E; injection E as <-. exact Hh. }
    destruct (step h o) as [h'| | |] eqn:E; cbn [bind]; try discriminate; [|congruence].
    apply IH; [apply S; reflexivity | assumption]. }
  intros os F. apply G; [|exact F]. intros i d Hd; discriminate.
Qed.

(** linearize() of a live, non-linear table always leaves dangling spans, whatever came before *)
Lemma linearize_dangles : forall h i d realloc h',
  objs h i = Some d -> lin d = false -> step h (Linearize i realloc) = Ok h' -> step h' (Eval i) = UB.
Proof.
  intros h i d realloc h' Hd Hl. cbn [step]. rewrite Hd, Hl.
  destruct (negb (live h (view d))); [discriminate|].
  intros E; injection E as <-. destruct realloc; cbn [assign next objs live]; rewrite upd_same; cbn [view];
    rewrite upd_same; reflexivity.
Qed.

Lemma copy_dangles : run heap0 [New true; Copy 0; Destroy 0; Eval 1] = UB.
Proof. vm_compute. reflexivity. Qed.
Lemma linearize_dangles_example : run heap0 [New false; Linearize 0 true; Eval 0] = UB
                               /\ run heap0 [New false; Linearize 0 false; Eval 0] = UB.
Proof. split; vm_compute; reflexivity. Qed.
Lemma no_copy_example : Forall no_copy [New false; New true; Eval 0; Destroy 0; Eval 1] /\
  exists h, run heap0 [New false; New true; Eval 0; Destroy 0; Eval 1] = Ok h.
Proof. split; [repeat constructor | vm_compute; eauto]. Qed.
