(** * Lemmas about expected values and rejection sampling *)
From Coq Require Import Reals Lra Lia List Arith. From Coquelicot Require Import Coquelicot.
From Verif Require Import Base S_Prob. Import ListNotations.
Local Open Scope R_scope.
Local Notation iR := (@is_RInt R_NormedModule).

Lemma iR_eq (f : R -> R) (a b u v : R) : u = v -> iR f a b u -> iR f a b v. Proof. intros ->. trivial. Qed.
Lemma ud_cons n x l : unit_draws (S n) (x :: l) <-> (0 < x < 1 /\ unit_draws n l).
Proof.
  unfold unit_draws. cbn. split.
  - intros [L F]. inversion F; subst. repeat split; try assumption; try lra; lia.
  - intros (X & L & F). split; [lia|constructor; assumption].
Qed.
Lemma ud_app n m l r : unit_draws n l -> unit_draws m r -> unit_draws (n + m) (l ++ r).
Proof. intros [L F] [L' F']. split; [rewrite app_length; lia|apply Forall_app; split; assumption]. Qed.
Lemma ud_split n m l : unit_draws (n + m) l -> exists a b, l = a ++ b /\ unit_draws n a /\ unit_draws m b.
Proof.
  intros [L F]. exists (firstn n l), (skipn n l). rewrite firstn_skipn. split; [reflexivity|]. rewrite <- (firstn_skipn n l) in F. apply Forall_app in F as [F1 F2].
  split; split; try assumption; [rewrite firstn_length; lia|rewrite skipn_length; lia].
Qed.
Lemma expect_ext n : forall f g v, (forall l, unit_draws n l -> f l = g l) -> expect n f v -> expect n g v.
Proof.
  induction n as [|n IH]; intros f g v E H; cbn in *.
  - rewrite H. apply E. split; [reflexivity|constructor].
  - destruct H as (h & H & I). exists h. split; [|exact I]. intros x Hx. apply (IH (fun l => f (x :: l))); [|apply H; exact Hx]. intros l Hl. apply E. apply ud_cons. split; assumption.
Qed.
Lemma expect_const n c : expect n (fun _ => c) c.
Proof.
  induction n as [|n IH]; cbn; [reflexivity|]. exists (fun _ => c). split; [intros; exact IH|].
  pose proof (@is_RInt_const R_NormedModule 0 1 c) as H. apply (iR_eq _ _ _ ((1 - 0) * c)); [lra|exact H].
Qed.
Lemma expect_lin n : forall f g a b u v, expect n f u -> expect n g v -> expect n (fun l => a * f l + b * g l) (a * u + b * v).
Proof.
  induction n as [|n IH]; intros f g a b u v Hf Hg; cbn in *; [subst; reflexivity|].
  destruct Hf as (F & Hf & If), Hg as (G & Hg & Ig). exists (fun x => a * F x + b * G x). split.
  - intros x Hx. exact (IH _ _ a b _ _ (Hf x Hx) (Hg x Hx)).
  - apply (@is_RInt_plus R_NormedModule); apply (@is_RInt_scal R_NormedModule); assumption.
Qed.
Lemma expect_unique n : forall f u v, expect n f u -> expect n f v -> u = v.
Proof.
  induction n as [|n IH]; intros f u v Hu Hv; cbn in *; [congruence|].
  destruct Hu as (F & Hf & If), Hv as (G & Hg & Ig).
  assert (E : iR G 0 1 u). { eapply (@is_RInt_ext R_NormedModule); [|exact If]. rewrite Rmin_left, Rmax_right by lra. intros x Hx. exact (IH _ _ _ (Hf x Hx) (Hg x Hx)). }
  rewrite <- (is_RInt_unique _ _ _ _ E). exact (is_RInt_unique _ _ _ _ Ig).
Qed.
Lemma expect_le n : forall f g u v, expect n f u -> expect n g v -> (forall l, unit_draws n l -> f l <= g l) -> u <= v.
Proof.
  induction n as [|n IH]; intros f g u v Hf Hg L; cbn in *.
  - subst. apply L. split; [reflexivity|constructor].
  - destruct Hf as (F & Hf & If), Hg as (G & Hg & Ig). apply (is_RInt_le F G 0 1 u v); [lra|exact If|exact Ig|]. intros x Hx. apply (IH _ _ _ _ (Hf x Hx) (Hg x Hx)). intros l Hl. apply L. apply ud_cons. split; assumption.
Qed.
(** integrating the last [m] numbers first *)
Lemma expect_app n m : forall f g v, (forall l, unit_draws n l -> expect m (fun r => f (l ++ r)) (g l)) -> expect n g v -> expect (n + m) f v.
Proof.
  induction n as [|n IH]; intros f g v E H; cbn in *.
  - subst. apply (E []). split; [reflexivity|constructor].
  - destruct H as (h & H & I). exists h. split; [|exact I]. intros x Hx. apply (IH _ (fun l => g (x :: l))); [|apply H; exact Hx]. intros l Hl. apply (E (x :: l)). apply ud_cons. split; assumption.
Qed.
Lemma expect_val n f u v : u = v -> expect n f u -> expect n f v. Proof. intros ->. trivial. Qed.
(** numbers that are not used *)
Lemma expect_firstn n m f v : expect n f v -> expect (n + m) (fun l => f (firstn n l)) v.
Proof.
  intros H. apply (expect_app n m _ f); [|exact H]. intros l [L _]. apply (expect_ext m (fun _ => f l)); [|apply expect_const]. intros r _. rewrite firstn_app, L, Nat.sub_diag, firstn_O, app_nil_r. rewrite <- L, firstn_all. reflexivity.
Qed.

(** ** events *)
Definition ind (A : list R -> Prop) n (f : list R -> R) : Prop := forall l, unit_draws n l -> (A l /\ f l = 1) \/ (~ A l /\ f l = 0).
Lemma prob_of A n f p : ind A n f -> expect n f p -> prob n A p. Proof. intros H E. exists f. split; assumption. Qed.
Lemma prob_ext n (A B : list R -> Prop) p : (forall l, unit_draws n l -> (A l <-> B l)) -> prob n A p -> prob n B p.
Proof. intros E (f & H & X). exists f. split; [|exact X]. intros l Hl. destruct (H l Hl) as [[a b]|[a b]]; [left|right]; (split; [|exact b]); rewrite <- (E l Hl); exact a. Qed.
Lemma prob_unique n A p q : prob n A p -> prob n A q -> p = q.
Proof.
  intros (f & H & X) (g & K & Y). apply (expect_unique n g); [|exact Y]. apply (expect_ext n f); [|exact X]. intros l Hl. destruct (H l Hl) as [[a ->]|[a ->]], (K l Hl) as [[b ->]|[b ->]]; try reflexivity; contradiction.
Qed.
Lemma prob_bounds n A p : prob n A p -> 0 <= p <= 1.
Proof.
  intros (f & H & X). split.
  - apply (expect_le n (fun _ => 0) f); [apply expect_const|exact X|]. intros l Hl. destruct (H l Hl) as [[_ ->]|[_ ->]]; lra.
  - apply (expect_le n f (fun _ => 1)); [exact X|apply expect_const|]. intros l Hl. destruct (H l Hl) as [[_ ->]|[_ ->]]; lra.
Qed.
Lemma prob_never n (A : list R -> Prop) : (forall l, unit_draws n l -> ~ A l) -> prob n A 0.
Proof. intros H. exists (fun _ => 0). split; [|apply expect_const]. intros l Hl. right. split; [apply H; exact Hl|reflexivity]. Qed.
Lemma prob_always n (A : list R -> Prop) : (forall l, unit_draws n l -> A l) -> prob n A 1.
Proof. intros H. exists (fun _ => 1). split; [|apply expect_const]. intros l Hl. left. split; [apply H; exact Hl|reflexivity]. Qed.
Lemma law_ext {A} (s : rand R A) (B C : A -> Prop) q : (forall v ds r, s ds = Ok (v, r) -> (B v <-> C v)) -> law s B q -> law s C q.
Proof.
  intros E (p & P & L). exists p. split; [|exact L]. intros k. apply (prob_ext k _ _ _) with (2 := P k). intros l Hl. split; intros (v & r & S & H); exists v, r; (split; [exact S|]); apply (E v l r S); exact H.
Qed.
Lemma law_unique {A} (s : rand R A) (B : A -> Prop) q q' : law s B q -> law s B q' -> q = q'.
Proof.
  intros (p & P & L) (p' & P' & L'). apply is_lim_seq_unique in L. apply is_lim_seq_unique in L'. rewrite (Lim_seq_ext p p') in L by (intros k; exact (prob_unique _ _ _ _ (P k) (P' k))). rewrite L' in L. injection L as ->. reflexivity.
Qed.

(** ** samplers that always use [n] numbers *)
Lemma law_bounds {A} (s : rand R A) (B : A -> Prop) q : law s B q -> 0 <= q <= 1.
Proof.
  intros (p & H & L). assert (K : forall k, 0 <= p k <= 1) by (intros k; exact (prob_bounds _ _ _ (H k))). split.
  - apply (is_lim_seq_le (fun _ => 0) p (Finite 0) (Finite q)); [intros k; apply K|apply is_lim_seq_const|exact L].
  - apply (is_lim_seq_le p (fun _ => 1) (Finite q) (Finite 1)); [intros k; apply K|exact L|apply is_lim_seq_const].
Qed.
Definition uses {A} (s : rand R A) (n : nat) (phi : list R -> A) : Prop :=
  (forall l r, unit_draws n l -> Forall (fun x => 0 < x < 1) r -> s (l ++ r) = Ok (phi l, r)) /\ (forall l, (length l < n)%nat -> forall v r, s l <> Ok (v, r)).
Lemma law_uses {A} (s : rand R A) n phi (B : A -> Prop) p : uses s n phi -> prob n (fun l => B (phi l)) p -> law s B p.
Proof.
  intros (U1 & U2) (f & H & X). exists (fun k => if (n <=? k)%nat then p else 0). split.
  - intros k. destruct (Nat.leb_spec n k) as [L|L].
    + replace k with (n + (k - n))%nat by lia. exists (fun l => f (firstn n l)). split; [|apply expect_firstn; exact X]. intros l Hl. apply ud_split in Hl as (a & b & -> & Ha & Hb).
      assert (firstn n (a ++ b) = a) as -> by (destruct Ha as [<- _]; rewrite firstn_app, Nat.sub_diag, firstn_O, app_nil_r, firstn_all; reflexivity).
      destruct (H a Ha) as [[h1 h2]|[h1 h2]]; [left|right]; (split; [|exact h2]).
      * exists (phi a), b. split; [apply U1; [exact Ha|apply Hb]|exact h1].
      * intros (v & r & E & Hv). rewrite U1 in E; [|exact Ha|apply Hb]. injection E as <- <-. contradiction.
    + apply prob_never. intros l [Hl _] (v & r & E & _). apply (U2 l) in E; [exact E|lia].
  - apply is_lim_seq_ext_loc with (fun _ => p); [|apply is_lim_seq_const]. exists n. intros k Hk. destruct (Nat.leb_spec n k); [reflexivity|lia].
Qed.

(** ** rejection *)
Definition rejects {A} (s : rand R A) (n : nat) (phi : list R -> A) (ok : list R -> Prop) : Prop :=
  (0 < n)%nat /\
  (forall l r, unit_draws n l -> Forall (fun x => 0 < x < 1) r -> (ok l /\ s (l ++ r) = Ok (phi l, r)) \/ (~ ok l /\ s (l ++ r) = s r)) /\
  (forall l, (length l < n)%nat -> forall v r, s l <> Ok (v, r)).
Lemma div_lim n : (0 < n)%nat -> filterlim (fun k => (k / n)%nat) Hierarchy.eventually Hierarchy.eventually.
Proof. intros H P [N HN]. exists (N * n)%nat. intros k Hk. apply HN. apply Nat.div_le_lower_bound; [lia|]. lia. Qed.
Lemma law_rejects {A} (s : rand R A) n phi ok (B : A -> Prop) pa pb : rejects s n phi ok -> prob n (fun l => ok l) pa -> prob n (fun l => ok l /\ B (phi l)) pb -> 0 < pa -> law s B (pb / pa).
Proof.
  intros (N0 & S1 & S2) Pa Pb P0. pose proof (proj2 (prob_bounds _ _ _ Pa)) as P1. destruct Pa as (fa & Ha & Xa), Pb as (fb & Hb & Xb).
  exists (fun k => pb / pa * (1 - (1 - pa) ^ (k / n))). split.
  - intros k. remember (k / n)%nat as j eqn:Ej. revert k Ej. induction j as [|j IH]; intros k Ej.
    + cbn. replace (pb / pa * (1 - 1)) with 0 by lra. apply prob_never. intros l [Hl _] (v & r & E & _). apply (S2 l) in E; [exact E|]. rewrite Hl. symmetry in Ej. apply Nat.div_small_iff in Ej; lia.
    + assert (Lk : (n <= k)%nat). { destruct (Nat.le_gt_cases n k); [assumption|]. rewrite Nat.div_small in Ej by assumption. discriminate. }
      assert (Ej' : j = ((k - n) / n)%nat). { replace k with ((k - n) + 1 * n)%nat in Ej by lia. rewrite Nat.div_add in Ej by lia. lia. }
      destruct (IH _ Ej') as (g & Hg & Xg). replace k with (n + (k - n))%nat by lia. set (m := (k - n)%nat) in *.
      exists (fun l => fb (firstn n l) + (1 - fa (firstn n l)) * g (skipn n l)). split.
      * intros l Hl. apply ud_split in Hl as (a & b & -> & Ua & Ub).
        assert (firstn n (a ++ b) = a) as -> by (destruct Ua as [<- _]; rewrite firstn_app, Nat.sub_diag, firstn_O, app_nil_r, firstn_all; reflexivity).
        assert (skipn n (a ++ b) = b) as -> by (destruct Ua as [<- _]; rewrite skipn_app, Nat.sub_diag, skipn_all; reflexivity).
        destruct (S1 a b Ua (proj2 Ub)) as [[K E]|[K E]].
        -- destruct (Ha a Ua) as [[_ ->]|[ka _]]; [|contradiction]. destruct (Hb a Ua) as [[kb ->]|[kb ->]].
           ++ left. split; [|lra]. exists (phi a), b. split; [exact E|apply kb].
           ++ right. split; [|lra]. intros (v & r & E' & Hv). rewrite E in E'. injection E' as <- <-. tauto.
        -- destruct (Ha a Ua) as [[ka _]|[_ ->]]; [contradiction|]. destruct (Hb a Ua) as [[kb _]|[_ ->]]; [tauto|]. destruct (Hg b Ub) as [[kg ->]|[kg ->]]; [left|right]; (split; [|lra]).
           ++ destruct kg as (v & r & E' & Hv). exists v, r. split; [rewrite E; exact E'|exact Hv].
           ++ intros (v & r & E' & Hv). apply kg. exists v, r. split; [rewrite <- E; exact E'|exact Hv].
      * set (u := pb / pa * (1 - (1 - pa) ^ j)) in *. apply (expect_app n m _ (fun l => fb l + (1 - fa l) * u)).
        -- intros a Ua. apply (expect_ext m (fun r => fb a * 1 + (1 - fa a) * g r)).
           ++ intros r _. assert (firstn n (a ++ r) = a) as -> by (destruct Ua as [<- _]; rewrite firstn_app, Nat.sub_diag, firstn_O, app_nil_r, firstn_all; reflexivity).
              assert (skipn n (a ++ r) = r) as -> by (destruct Ua as [<- _]; rewrite skipn_app, Nat.sub_diag, skipn_all; reflexivity). lra.
           ++ eapply expect_val; [|apply (expect_lin m (fun _ => 1) g (fb a) (1 - fa a)); [apply expect_const|exact Xg]]. lra.
        -- apply (expect_ext n (fun l => 1 * (1 * fb l + (- u) * fa l) + u * 1)); [intros l _; lra|].
           eapply expect_val; [|apply (expect_lin n); [apply expect_lin; [exact Xb|exact Xa]|apply expect_const]]. cbn [pow]. unfold u. field. lra.
  - replace (Finite (pb / pa)) with (Rbar_mult (Finite (pb / pa)) (Finite (1 - 0))) by (cbn; f_equal; lra). apply (is_lim_seq_scal_l (fun k => 1 - (1 - pa) ^ (k / n)) (pb / pa) (Finite (1 - 0))).
    apply is_lim_seq_minus'; [apply is_lim_seq_const|]. apply (is_lim_seq_subseq (fun j => (1 - pa) ^ j) 0 (fun k => (k / n)%nat)); [apply div_lim; exact N0|]. apply is_lim_seq_geom. rewrite Rabs_pos_eq; lra.
Qed.
