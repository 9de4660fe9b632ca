From Verif Require Import Base NumR M_Rng.
From Coq Require Import Znumtheory ZArith Zpow_facts.
Local Open Scope Z_scope.

(** geometric sum 1 + a + ... + a^(n-1) *)
Fixpoint geom (a : Z) (n : nat) : Z := match n with O => 0 | S k => 1 + a * geom a k end.
(** state reached from seed s after k steps, closed form *)
Definition lcg_closed (s : Z) (k : nat) : Z := (lcg_a ^ Z.of_nat k * s + geom lcg_a k) mod lcg_m.

Lemma geom_tail a n : geom a (S n) = geom a n + a ^ Z.of_nat n.
Proof.
  induction n as [|n IH]; [cbn [geom]; change (Z.of_nat 0) with 0; rewrite Z.pow_0_r; ring|].
  change (geom a (S (S n))) with (1 + a * geom a (S n)). rewrite IH.
  rewrite Nat2Z.inj_succ, Z.pow_succ_r by lia. change (geom a (S n)) with (1 + a * geom a n) in IH.
  rewrite Z.mul_add_distr_l. lia.
Qed.
Lemma geom_add a n k : geom a (n + k) = geom a n + a ^ Z.of_nat n * geom a k.
Proof.
  induction n as [|n IH]; [cbn [geom plus]; change (Z.of_nat 0) with 0; rewrite Z.pow_0_r; ring|].
  cbn [geom plus]. rewrite IH, Nat2Z.inj_succ, Z.pow_succ_r by lia. ring.
Qed.
Lemma geom_pow a n : (a - 1) * geom a n = a ^ Z.of_nat n - 1.
Proof.
  induction n as [|n IH]; [cbn [geom]; change (Z.of_nat 0) with 0; rewrite Z.pow_0_r; ring|].
  rewrite geom_tail, Nat2Z.inj_succ, Z.pow_succ_r by lia. lia.
Qed.

Lemma lcg_m_pos : 0 < lcg_m. Proof. reflexivity. Qed.
Lemma discard_closed n : forall x, 0 <= x < lcg_m -> lcg_discard n x = lcg_closed x n.
Proof.
  assert (P := lcg_m_pos).
  induction n as [|n IH]; intros x Hx; unfold lcg_closed in *; cbn [lcg_discard geom].
  - change (Z.of_nat 0) with 0. rewrite Z.pow_0_r, Z.mod_small; lia.
  - rewrite IH by (apply Z.mod_pos_bound; exact P). unfold lcg_next.
    rewrite Z.add_mod, Z.mul_mod, Z.mod_mod, <- Z.mul_mod, <- Z.add_mod by (unfold lcg_m; lia).
    f_equal. rewrite Nat2Z.inj_succ, Z.pow_succ_r by lia.
    pose proof (geom_tail lcg_a n) as G. cbn [geom] in G. unfold lcg_c. nia.
Qed.
Lemma discard_range n : forall x, 0 <= x < lcg_m -> 0 <= lcg_discard n x < lcg_m.
Proof. intros x H. rewrite discard_closed by exact H. apply Z.mod_pos_bound, lcg_m_pos. Qed.
Lemma discard_add n k : forall x, lcg_discard (n + k) x = lcg_discard k (lcg_discard n x).
Proof. induction n as [|n IH]; intros x; [reflexivity|]. cbn. apply IH. Qed.

(** ** Histories *)
(** seed in force and number of transitions since it was set, for a history (spec) *)
Fixpoint since (seed : Z) (k : nat) (os : list rng_op) : Z * nat :=
  match os with
  | [] => (seed, k)
  | Rng :: t => since seed (k + 1) t
  | RngAdvance n :: t => since seed (k + n) t
  | RngReset :: t => since 1 0 t
  | RngSeed s :: t => since s 0 t
  end.
Lemma seed_range s : 0 <= lcg_seed s < lcg_m.
Proof. apply Z.mod_pos_bound, lcg_m_pos. Qed.

Lemma run_closed os : forall s k, 
  fst (rng_run (lcg_discard k (lcg_seed s)) os) =
  lcg_closed (lcg_seed (fst (since s k os))) (snd (since s k os)).
Proof.
  induction os as [|o os IH]; intros s k; cbn [rng_run since].
  - cbn [fst snd]. apply discard_closed, seed_range.
  - destruct o as [| |s'|n]; cbn [rng_step].
    + change (lcg_next (lcg_discard k (lcg_seed s))) with (lcg_discard 1 (lcg_discard k (lcg_seed s))).
      rewrite <- discard_add, <- IH. destruct (rng_run (lcg_discard (k + 1) (lcg_seed s)) os); reflexivity.
    + rewrite <- (IH 1 0%nat). cbn [lcg_discard]. destruct (rng_run _ os); reflexivity.
    + rewrite <- (IH s' 0%nat). cbn [lcg_discard]. destruct (rng_run _ os); reflexivity.
    + rewrite <- discard_add, <- IH. destruct (rng_run _ os); reflexivity.
Qed.
Lemma history_closed os : fst (rng_history os) = lcg_closed (lcg_seed (fst (since 1 0 os))) (snd (since 1 0 os)).
Proof. apply (run_closed os 1 0%nat). Qed.

Lemma rng_value_range x : 0 <= x < lcg_m -> (0 <= rng_value x < 1)%R.
Proof.
  intros [H1 H2]. unfold rng_value. apply IZR_le in H1. apply IZR_lt in H2.
  assert (0 < IZR lcg_m)%R by (apply IZR_lt, lcg_m_pos).
  split.
  - apply Rmult_le_pos; [exact H1|]. left; apply Rinv_0_lt_compat; assumption.
  - apply Rmult_lt_reg_r with (IZR lcg_m); [assumption|]. field_simplify; lra.
Qed.
Lemma rng_values_in_range os : forall x, 0 <= x < lcg_m -> Forall (fun v => (0 <= v < 1)%R) (snd (rng_run x os)).
Proof.
  induction os as [|o os IH]; intros x Hx; cbn [rng_run]; [constructor|].
  assert (0 <= fst (rng_step x o) < lcg_m /\ Forall (fun v => (0 <= v < 1)%R) (snd (rng_step x o))) as [A B].
  { destruct o; cbn [rng_step fst snd].
    - assert (0 <= lcg_next x < lcg_m) by (apply Z.mod_pos_bound, lcg_m_pos).
      split; [assumption|]. constructor; [|constructor]. apply rng_value_range; assumption.
    - split; [apply seed_range | constructor].
    - split; [apply seed_range | constructor].
    - split; [apply discard_range; exact Hx | constructor]. }
  destruct (rng_step x o) as [x' v]. cbn [fst snd] in A, B. specialize (IH x' A).
  destruct (rng_run x' os) as [x'' w]. cbn [snd] in *. apply Forall_app; split; assumption.
Qed.

(** rng_advance(n) = n calls of rng() with the results thrown away *)
Lemma advance_is_draws n os os' : 
  fst (rng_history (os ++ RngAdvance n :: os')) = fst (rng_history (os ++ repeat Rng n ++ os')) /\
  snd (rng_run (fst (rng_history (os ++ [RngAdvance n]))) os') = snd (rng_run (fst (rng_history (os ++ repeat Rng n))) os').
Proof.
  unfold rng_history.
  assert (A : forall os x os', fst (rng_run x (os ++ os')) = fst (rng_run (fst (rng_run x os)) os')).
  { induction os0 as [|o os0 IH]; intros x os1; cbn [app rng_run]; [reflexivity|].
    destruct (rng_step x o) as [x' v]. specialize (IH x' os1).
    destruct (rng_run x' os0) as [x'' w]. destruct (rng_run x' (os0 ++ os1)) as [y u]. exact IH. }
  assert (D : forall n x, fst (rng_run x (repeat Rng n)) = lcg_discard n x).
  { induction n0 as [|k IH]; intros x; cbn [repeat rng_run rng_step lcg_discard]; [reflexivity|].
    rewrite <- IH. destruct (rng_run (lcg_next x) (repeat Rng k)); reflexivity. }
  assert (E : forall x, fst (rng_run x [RngAdvance n]) = lcg_discard n x) by reflexivity.
  split.
  - rewrite !A. change (RngAdvance n :: os') with ([RngAdvance n] ++ os'). rewrite !A, D, E. reflexivity.
  - rewrite !A, D, E. reflexivity.
Qed.

(** ** Period.  a = 1 mod 4 *)
Section Period.
  Variables a b : Z.
  Hypothesis Ha : a = 4 * b + 1.

  Lemma pow_mod4 n : exists q, a ^ Z.of_nat n = 4 * q + 1.
  Proof.
    induction n as [|n [q IH]]; [exists 0; reflexivity|].
    rewrite Nat2Z.inj_succ, Z.pow_succ_r, IH by lia. subst a. exists (4 * b * q + b + q). ring.
  Qed.
  Lemma geom_parity n : exists q, geom a n = Z.of_nat n + 2 * q.
  Proof.
    induction n as [|n [q IH]]; [exists 0; reflexivity|]. rewrite geom_tail, IH, Nat2Z.inj_succ.
    destruct (pow_mod4 n) as [r ->]. exists (q + 2 * r). lia.
  Qed.
  Lemma geom_double n : exists q, geom a (n + n) = 2 * (2 * q + 1) * geom a n.
  Proof.
    rewrite geom_add. destruct (pow_mod4 n) as [r ->]. exists r. ring.
  Qed.
  Lemma odd_divide k q z : (2 ^ Z.of_nat k | (2 * q + 1) * z) -> (2 ^ Z.of_nat k | z).
  Proof.
    intros H. apply Gauss in H; [exact H|].
    apply rel_prime_sym, rel_prime_Zpower_r; [lia|].
    apply rel_prime_sym, bezout_rel_prime. apply Bezout_intro with (u := - q) (v := 1). ring.
  Qed.

  Lemma geom_divide k : forall n, (2 ^ Z.of_nat k | geom a n) <-> (2 ^ Z.of_nat k | Z.of_nat n).
  Proof.
    induction k as [|k IH]; intros n.
    - change (2 ^ Z.of_nat 0) with 1. split; intros _; apply Z.divide_1_l.
    - rewrite Nat2Z.inj_succ, Z.pow_succ_r by lia.
      assert (Ev : (2 | geom a n) <-> (2 | Z.of_nat n)).
      { destruct (geom_parity n) as [q ->]. split; intros [z Hz]; [exists (z - q) | exists (z + q)]; lia. }
      assert (K : (2 | Z.of_nat n) -> exists h, n = (h + h)%nat).
      { intros [z Hz]. exists (Z.to_nat z). lia. }
      split; intros H.
      + assert (2 | Z.of_nat n) as H2 by (apply Ev; eapply Z.divide_trans; [|exact H]; apply Z.divide_factor_l).
        destruct (K H2) as [h ->]. destruct (geom_double h) as [q Eq]. rewrite Eq in H.
        assert (2 ^ Z.of_nat k | (2 * q + 1) * geom a h) as H3.
        { destruct H as [z Hz]. exists z. nia. }
        apply odd_divide, IH in H3. destruct H3 as [z Hz]. exists z. lia.
      + assert (2 | Z.of_nat n) as H2 by (eapply Z.divide_trans; [|exact H]; apply Z.divide_factor_l).
        destruct (K H2) as [h ->]. destruct (geom_double h) as [q ->].
        assert (2 ^ Z.of_nat k | Z.of_nat h) as H3.
        { destruct H as [z Hz]. exists z. nia. }
        apply IH in H3. destruct H3 as [z ->]. exists ((2 * q + 1) * z). ring.
  Qed.

  (** 2^k steps: geom = 2^k * odd *)
  Lemma geom_pow2 k : exists q, geom a (2 ^ k) = 2 ^ Z.of_nat k * (2 * q + 1).
  Proof.
    induction k as [|k [q IH]].
    - exists 0. change (2 ^ 0)%nat with 1%nat. cbn [geom]. change (2 ^ Z.of_nat 0) with 1. lia.
    - replace (2 ^ S k)%nat with (2 ^ k + 2 ^ k)%nat by (cbn; lia). destruct (geom_double (2 ^ k)) as [r ->]. rewrite IH.
      rewrite Nat2Z.inj_succ, Z.pow_succ_r by lia. exists (2 * r * q + r + q). ring.
  Qed.

  (** unreduced orbit *)
  Definition orb (s : Z) (n : nat) : Z := a ^ Z.of_nat n * s + geom a n.
  Lemma orb_diff s n : orb s n - s = geom a n * ((a - 1) * s + 1).
  Proof. unfold orb. pose proof (geom_pow a n). nia. Qed.
  Lemma orb_add s n k : orb s (n + k) = orb (orb s n) k.
  Proof.
    unfold orb. rewrite geom_add. rewrite Nat2Z.inj_add, Z.pow_add_r by lia.
    rewrite (Nat.add_comm n k) || idtac.
    pose proof (geom_pow a n). pose proof (geom_pow a k). nia.
  Qed.
  Lemma orb_reach s t k : exists n, (n < 2 ^ k)%nat /\ (2 ^ Z.of_nat k | orb s n - t).
  Proof.
    induction k as [|k (n & Hn & q & Hq)].
    - exists 0%nat. split; [cbn; lia|]. change (2 ^ Z.of_nat 0) with 1. apply Z.divide_1_l.
    - destruct (Z.Even_or_Odd q) as [[r Hr]|[r Hr]].
      + exists n. split; [cbn; lia|]. exists r. rewrite Nat2Z.inj_succ, Z.pow_succ_r by lia. nia.
      + exists (n + 2 ^ k)%nat. split; [cbn; lia|]. rewrite orb_add.
        pose proof (orb_diff (orb s n) (2 ^ k)) as D. destruct (geom_pow2 k) as [w Hw]. rewrite Hw in D.
        rewrite Nat2Z.inj_succ, Z.pow_succ_r by lia.
        exists (r + (2 * b * orb s n) * (2 * w + 1) + w + 1).
        replace (orb (orb s n) (2 ^ k) - t) with ((orb (orb s n) (2 ^ k) - orb s n) + (orb s n - t)) by ring.
        rewrite D, Hq, Hr. replace (a - 1) with (4 * b) by lia. ring.
  Qed.
End Period.

Lemma lcg_a_mod4 : lcg_a = 4 * 701549227626695177 + 1. Proof. reflexivity. Qed.
Lemma lcg_m_pow : lcg_m = 2 ^ Z.of_nat 63. Proof. reflexivity. Qed.

Lemma mod_eq_divide x y m : 0 < m -> (x mod m = y mod m <-> (m | x - y)).
Proof.
  intros H. split; intros E.
  - exists (x / m - y / m). rewrite (Z.div_mod x m), (Z.div_mod y m) at 1 by lia. rewrite E. ring.
  - destruct E as [q E]. replace x with (y + q * m) by lia. apply Z.mod_add. lia.
Qed.

Lemma period_exact s k : 0 <= s < lcg_m -> (lcg_discard k s = s <-> (lcg_m | Z.of_nat k)).
Proof.
  intros Hs. rewrite discard_closed by exact Hs. unfold lcg_closed.
  rewrite <- (Z.mod_small s lcg_m) at 2 by exact Hs. rewrite mod_eq_divide by reflexivity.
  change (lcg_a ^ Z.of_nat k * s + geom lcg_a k) with (orb lcg_a s k). rewrite (orb_diff _ _ lcg_a_mod4).
  rewrite lcg_m_pow, <- (geom_divide _ _ lcg_a_mod4 63 k). split.
  - intros H. rewrite Z.mul_comm in H. 
    apply odd_divide with (q := 2 * 701549227626695177 * s).
    replace (2 * (2 * 701549227626695177 * s) + 1) with ((lcg_a - 1) * s + 1) by (rewrite lcg_a_mod4; ring). exact H.
  - intros H. apply Z.divide_mul_l. exact H.
Qed.

Lemma full_range s t : 0 <= s < lcg_m -> 0 <= t < lcg_m ->
  exists k, Z.of_nat k < lcg_m /\ lcg_discard k s = t.
Proof.
  intros Hs Ht. destruct (orb_reach lcg_a _ lcg_a_mod4 s t 63) as (n & Hn & D).
  exists n. split.
  - rewrite lcg_m_pow. apply inj_lt in Hn. rewrite Nat2Z.inj_pow in Hn. exact Hn.
  - rewrite discard_closed by exact Hs. unfold lcg_closed.
    rewrite <- (Z.mod_small t lcg_m) by exact Ht. apply mod_eq_divide; [reflexivity|]. rewrite lcg_m_pow. exact D.
Qed.
