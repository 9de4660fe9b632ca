(** * Laws of samplers that choose with one random number *)
From Coq Require Import Reals Lra Lia List Arith ZArith ZifyBool ZifyNat. From Coquelicot Require Import Coquelicot.
From Verif Require Import Base NumR S_Prob S_Mix S_Replay S_Thermal S_ThermalLaw L_Legendre L_Prob L_ProbEv L_ProbLaw L_ProbLoop L_ProbComp L_Replay. Import ListNotations.
Local Open Scope R_scope.
Local Notation iR := (@is_RInt R_NormedModule).

Lemma law_value {A} (s : rand R A) v (B : A -> Prop) (d : {B v} + {~ B v}) : (forall ds, open01 ds -> s ds = Ok (v, ds)) -> law s B (one_if d).
Proof.
  intros H. eapply law_same; [intros ds O; symmetry; apply H; exact O|]. exists (fun _ => one_if d). split; [|apply is_lim_seq_const]. intros k. destruct d as [Y|N]; cbn.
  - apply prob_always. intros l _. exists v, l. split; [reflexivity|exact Y].
  - apply prob_never. intros l _ (w & r & E & W). injection E as <- _. contradiction.
Qed.
Lemma sum_to_S (q : Z -> R) : forall n, sum_to (S n) q = q 0%Z + sum_to n (fun k => q (k + 1)%Z).
Proof. induction n as [|n IH]; [cbn; ring|]. change (sum_to (S (S n)) q) with (sum_to (S n) q + q (Z.of_nat (S n))). rewrite IH. cbn [sum_to]. replace (Z.of_nat n + 1)%Z with (Z.of_nat (S n)) by lia. ring. Qed.
Lemma sum_to_ext (q q' : Z -> R) : forall n, (forall k, (0 <= k < Z.of_nat n)%Z -> q k = q' k) -> sum_to n q = sum_to n q'.
Proof. induction n as [|n IH]; intros H; [reflexivity|]. cbn. rewrite IH by (intros k Hk; apply H; lia). rewrite H by lia. reflexivity. Qed.
Lemma sum_to_scal (c : R) (q : Z -> R) : forall n, sum_to n (fun k => c * q k) = c * sum_to n q.
Proof. induction n as [|n IH]; cbn; [ring|]. rewrite IH. ring. Qed.
Lemma sum_to_const (c : R) : forall n, sum_to n (fun _ => c) = INR n * c.
Proof. induction n as [|n IH]; [cbn; ring|]. cbn [sum_to]. rewrite IH, S_INR. ring. Qed.
Lemma sum_to_one n : sum_to 1 n = n 0%Z. Proof. cbn. ring. Qed.
(** a list of choices numbered from [a] on, with weights [w] *)
Fixpoint choices {A} (w : Z -> R) (F : Z -> rand R A) (n : nat) (a : Z) : list (R * rand R A) := match n with O => [] | S m => (w a, F a) :: choices w F m (a + 1)%Z end.
Lemma choices_fst {A} w (F : Z -> rand R A) : forall n a, total (map fst (choices w F n a)) = sum_to n (fun k => w (a + k)%Z).
Proof. induction n as [|n IH]; intros a; [reflexivity|]. cbn [choices map total fst]. rewrite IH, sum_to_S. replace (a + 0)%Z with a by lia. f_equal. apply sum_to_ext. intros k _. f_equal. lia. Qed.
Lemma choices_pos {A} w (F : Z -> rand R A) : (forall k, 0 <= w k) -> forall n a, Forall (fun p => 0 <= p) (map fst (choices w F n a)).
Proof. intros H. induction n as [|n IH]; intros a; cbn; constructor; [apply H|apply IH]. Qed.
Lemma choices_law {A} w (F : Z -> rand R A) (B : A -> Prop) (q : Z -> R) : forall n a, (forall k, (a <= k < a + Z.of_nat n)%Z -> law (F k) B (q k)) ->
  exists qs, Forall2 (fun d q => law (snd d) B q) (choices w F n a) qs /\ weigh (map fst (choices w F n a)) qs = sum_to n (fun k => w (a + k)%Z * q (a + k)%Z).
Proof.
  induction n as [|n IH]; intros a H; [exists []; split; [constructor|reflexivity]|]. destruct (IH (a + 1)%Z) as (qs & H1 & H2); [intros k Hk; apply H; lia|]. exists (q a :: qs). split; [constructor; [apply H; lia|exact H1]|].
  cbn [choices map weigh fst]. rewrite H2, sum_to_S. replace (a + 0)%Z with a by lia. f_equal. apply sum_to_ext. intros k _. f_equal; f_equal; lia.
Qed.
Lemma choices_pick {A} w (F : Z -> rand R A) last x ds : (forall k, 0 <= w k) -> forall n a s0 k, (a <= k < a + Z.of_nat n)%Z -> s0 + sum_to (Z.to_nat (k - a)) (fun i => w (a + i)%Z) <= x < s0 + sum_to (S (Z.to_nat (k - a))) (fun i => w (a + i)%Z) ->
  pick (choices w F n a) last s0 x ds = F k ds.
Proof.
  intros W. induction n as [|n IH]; intros a s0 k Hk Hx; [lia|]. cbn [choices pick]. destruct (Z.eq_dec k a) as [->|N].
  - replace (a - a)%Z with 0%Z in Hx by lia. cbn in Hx. replace (a + 0)%Z with a in Hx by lia. destruct (Rlt_dec x (s0 + w a)); [reflexivity|lra].
  - replace (Z.to_nat (k - a)) with (S (Z.to_nat (k - (a + 1)))) in Hx by lia. rewrite (sum_to_S _ (S _)), sum_to_S in Hx. replace (a + 0)%Z with a in Hx by lia.
    assert (P : 0 <= sum_to (Z.to_nat (k - (a + 1))) (fun i => w (a + (i + 1))%Z)) by (generalize (Z.to_nat (k - (a + 1))); intros m; induction m; cbn; [lra|pose proof (W (a + (Z.of_nat m + 1))%Z); lra]).
    destruct (Rlt_dec x (s0 + w a)); [lra|]. apply IH; [lia|]. rewrite !(sum_to_ext (fun i => w (a + 1 + i)%Z) (fun i => w (a + (i + 1))%Z)) by (intros i _; f_equal; lia). lra.
Qed.
(** the [k]-th of [n] choices, each with its weight *)
Lemma law_weighted {A} (s : rand R A) (n : nat) (w : Z -> R) (F : Z -> rand R A) (B : A -> Prop) (q : Z -> R) : asks s -> (forall k, 0 <= w k) -> sum_to n w = 1 -> (0 < n)%nat ->
  (forall x ds, 0 < x < 1 -> open01 ds -> exists k, (0 <= k < Z.of_nat n)%Z /\ sum_to (Z.to_nat k) w <= x < sum_to (S (Z.to_nat k)) w /\ s (x :: ds) = F k ds) ->
  (forall k, (0 <= k < Z.of_nat n)%Z -> law (F k) B (q k)) -> law s B (sum_to n (fun k => w k * q k)).
Proof.
  intros As W T N S H. destruct (choices_law w F B q n 0%Z ltac:(intros k Hk; apply H; lia)) as (qs & H1 & H2).
  eapply law_val; [|apply (law_pick s (choices w F n 0%Z) (F 0%Z) B qs (q 0%Z) As)].
  - rewrite H2, choices_fst. change (fun k => w (0 + k)%Z) with (fun k => w k). change (fun k => w (0 + k)%Z * q (0 + k)%Z) with (fun k => w k * q k). change (sum_to n (fun k => w k)) with (sum_to n w). rewrite T. ring.
  - apply choices_pos, W.
  - rewrite choices_fst. change (sum_to n w <= 1). lra.
  - intros x ds Hx O. destruct (S x ds Hx O) as (k & Hk & Kx & ->). symmetry. apply choices_pick; [exact W|lia|]. replace (k - 0)%Z with k by lia. change (0 + sum_to (Z.to_nat k) w <= x < 0 + sum_to (Datatypes.S (Z.to_nat k)) w). lra.
  - exact H1.
  - apply H. lia.
Qed.
(** one of [n] equally probable choices *)
Lemma law_uniform {A} (s : rand R A) (n : Z) (F : Z -> rand R A) (B : A -> Prop) (q : Z -> R) : asks s -> (0 < n)%Z ->
  (forall x ds, 0 < x < 1 -> open01 ds -> exists k, kth n x k /\ s (x :: ds) = F k ds) -> (forall k, (0 <= k < n)%Z -> law (F k) B (q k)) -> law s B (sum_of n q / IZR n).
Proof.
  intros As N S H. assert (Pn : 0 < IZR n) by (apply IZR_lt; exact N). assert (Ei : forall k, (0 <= k)%Z -> sum_to (Z.to_nat k) (fun _ => 1 / IZR n) = IZR k / IZR n) by (intros k Hk; rewrite sum_to_const, INR_IZR_INZ, Z2Nat.id by lia; field; lra).
  eapply law_val; [|apply (law_weighted s (Z.to_nat n) (fun _ => 1 / IZR n) F B q As)].
  - unfold sum_of. rewrite sum_to_scal. field. lra.
  - intros _. left. apply Rdiv_lt_0_compat; lra.
  - rewrite Ei by lia. field. lra.
  - lia.
  - intros x ds Hx O. destruct (S x ds Hx O) as (k & [K1 K2] & ->). exists k. split; [lia|]. split; [|reflexivity]. replace (Datatypes.S (Z.to_nat k)) with (Z.to_nat (k + 1)) by lia. rewrite !Ei by lia. rewrite plus_IZR.
    split; [apply Rle_div_l|apply Rlt_div_r]; lra.
  - intros k Hk. apply H. lia.
Qed.
