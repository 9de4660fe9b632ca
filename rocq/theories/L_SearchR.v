(** * The search lemmas on real vectors, with [getR v i] for the i-th element *)
From Verif Require Import Base NumR L_Search.
Local Open Scope R_scope.

Definition getR (v : list R) (i : Z) : R := nth (Z.to_nat i) v 0.

Lemma atR (v : list R) i : (0 <= i < sizeZ v)%Z -> atZ v i = Ok (getR v i).
Proof. apply atZ_nth. Qed.

Lemma atR_inv (v : list R) i a : atZ v i = Ok a -> (0 <= i < sizeZ v)%Z /\ a = getR v i.
Proof.
  intros H. pose proof (atZ_inv _ _ _ H) as [H1 _]. split; [exact H1|].
  rewrite atR in H by exact H1. congruence.
Qed.

Lemma getR_cons_S a v i : (0 <= i)%Z -> getR (a :: v) (i + 1) = getR v i.
Proof. intros H. unfold getR. replace (Z.to_nat (i + 1)) with (S (Z.to_nat i)) by lia. reflexivity. Qed.

Lemma ForallTrue {A} (v : list A) : Forall (fun _ => True) v.
Proof. induction v; constructor; auto. Qed.

(** increasing (weakly) vectors, stated without any model function *)
Definition increasing (v : list R) : Prop :=
  forall i j, (0 <= i)%Z -> (i <= j)%Z -> (j < sizeZ v)%Z -> getR v i <= getR v j.
Definition strictly_increasing (v : list R) : Prop :=
  forall i j, (0 <= i)%Z -> (i < j)%Z -> (j < sizeZ v)%Z -> getR v i < getR v j.

Lemma strictly_increasing_increasing v : strictly_increasing v -> increasing v.
Proof.
  intros H i j Hi Hij Hj. destruct (Z.eq_dec i j) as [->|]; [lra|]. left; apply H; lia.
Qed.

Lemma is_sorted_increasing v : is_sorted v = true <-> increasing v.
Proof.
  split.
  - intros S i j Hi Hij Hj.
    apply Rltb_false. eapply (@sorted_le R NumR _ NumR_order v (ForallTrue v) S i j);
      [lia | apply atR; lia | apply atR; lia].
  - induction v as [|a v IH]; intros H; [reflexivity|].
    destruct v as [|b v]; [reflexivity|].
    rewrite is_sorted_cons. apply andb_true_iff; split.
    + apply negb_true_iff, Rltb_false.
      apply (H 0 1)%Z; try lia.
      rewrite !sizeZ_cons. pose proof (sizeZ_nonneg v). lia.
    + apply IH. intros i j Hi Hij Hj. specialize (H (i+1) (j+1))%Z.
      rewrite !getR_cons_S in H by lia. apply H; try lia. rewrite (sizeZ_cons a); lia.
Qed.

(** [lb_at v x k]: k is the first index whose element is not below x *)
Definition lb_at (v : list R) (x : R) (k : Z) : Prop :=
  (0 <= k <= sizeZ v)%Z /\
  (forall i, (0 <= i < k)%Z -> getR v i < x) /\
  (forall i, (k <= i < sizeZ v)%Z -> x <= getR v i).

Lemma is_lower_bound_R v x k : is_lower_bound v x k <-> lb_at v x k.
Proof.
  unfold is_lower_bound, lb_at. split; intros (H1 & H2 & H3); split; try exact H1; split.
  - intros i Hi. apply Rltb_true. apply (H2 i); [lia|]. apply atR; lia.
  - intros i Hi. apply Rltb_false. apply (H3 i); [lia|]. apply atR; lia.
  - intros i a Hi Ha. apply atR_inv in Ha as [Ha ->]. apply Rltb_true, H2; lia.
  - intros i a Hi Ha. apply atR_inv in Ha as [Ha ->]. apply Rltb_false, H3; lia.
Qed.

Lemma lower_boundR v x : increasing v -> exists k, lower_bound v x = Ok k /\ lb_at v x k.
Proof.
  intros H. apply is_sorted_increasing in H.
  destruct (@lower_bound_spec R NumR _ NumR_order v x (ForallTrue v) I H) as (k & E & K).
  exists k; split; [exact E | apply is_lower_bound_R, K].
Qed.

Lemma lower_boundR_eq v x k : increasing v -> lb_at v x k -> lower_bound v x = Ok k.
Proof.
  intros H K. apply is_sorted_increasing in H.
  eapply (@lower_bound_eq R NumR _ NumR_order v x k (ForallTrue v) I H), is_lower_bound_R, K.
Qed.

Lemma lb_at_unique v x k k' : lb_at v x k -> lb_at v x k' -> k = k'.
Proof. rewrite <- !is_lower_bound_R. apply is_lower_bound_unique. Qed.

Lemma lower_bound_rangeR v x lo hi : increasing v -> (0 <= lo <= hi)%Z -> (hi <= sizeZ v)%Z ->
  (forall i, (0 <= i < lo)%Z -> getR v i < x) ->
  (forall i, (hi <= i < sizeZ v)%Z -> x <= getR v i) ->
  exists k, lower_bound_range v lo hi x = Ok k /\ (lo <= k <= hi)%Z /\ lb_at v x k.
Proof.
  intros H H1 H2 Hlo Hhi. apply is_sorted_increasing in H.
  destruct (@lower_bound_range_spec R NumR _ NumR_order v x lo hi (ForallTrue v) I H H1 H2) as (k & E & K & L).
  - intros i a Hi Ha. apply atR_inv in Ha as [Ha ->]. apply Rltb_true, Hlo; lia.
  - intros i a Hi Ha. apply atR_inv in Ha as [Ha ->]. apply Rltb_false, Hhi; lia.
  - exists k. split; [exact E|]. split; [exact K|]. apply is_lower_bound_R, L.
Qed.

Lemma getR_In v i : (0 <= i < sizeZ v)%Z -> In (getR v i) v.
Proof. intros H. apply nth_In. unfold sizeZ in H; lia. Qed.

Lemma In_getR v a : In a v -> exists i, (0 <= i < sizeZ v)%Z /\ a = getR v i.
Proof.
  intros H. destruct (In_atZ v a H) as [i Hi]. exists i. apply atR_inv in Hi. exact Hi.
Qed.

Lemma frontR_R v : (0 < sizeZ v)%Z -> frontR v = Ok (getR v 0).
Proof. intros; apply atR; lia. Qed.
Lemma backR_R v : (0 < sizeZ v)%Z -> backR v = Ok (getR v (sizeZ v - 1)).
Proof. intros; apply atR; lia. Qed.

(** evaluate [getR l k] on literals *)
Ltac getz := unfold getR in *; cbv [Z.to_nat Z.add Pos.to_nat Pos.iter_op Pos.add Pos.succ Nat.add nth Z.sub Z.opp Z.pos_sub Pos.pred_double sizeZ length Z.of_nat Pos.of_succ_nat] in *.
