(** * Energy grid lookup (exact arithmetic) *)
From Verif Require Import Base NumR L_Search L_SearchR M_Grid.
From Coq Require Import ZifyBool ZifyNat.
Local Open Scope R_scope.

Lemma wrap32_id z : (0 <= z < 2 ^ 32)%Z -> wrap32 z = z.
Proof. intros; apply Z.mod_small; assumption. Qed.
Lemma wrap64_id z : (0 <= z < 2 ^ 64)%Z -> wrap64 z = z.
Proof. intros; apply Z.mod_small; assumption. Qed.

(** [bin_bound f du b] : front * exp(du)^b *)
Lemma hash_loop_spec vals du : increasing vals -> (sizeZ vals < 2 ^ 32)%Z ->
  forall n E, (forall m, (1 <= m)%nat -> (m <= n)%nat -> forall k, lb_at vals (E * exp du ^ m) k -> (1 <= k)%Z) ->
  exists l, @hash_loop R NumR n vals du E = Ok l /\ length l = n /\
    forall b, (b < n)%nat -> lb_at vals (E * exp du ^ (S b)) (nth b l 0%Z + 1) /\ (0 <= nth b l 0%Z)%Z.
Proof.
  intros Hi Hs. induction n as [|n IH]; intros E Hk.
  - exists []. split; [reflexivity|]. split; [reflexivity|]. intros; lia.
  - cbn [hash_loop]. change (nmul E (nexp du)) with (E * exp du).
    destruct (lower_boundR vals (E * exp du) Hi) as (k & Ek & Lk). rewrite Ek. cbn [bind].
    destruct (IH (E * exp du)) as (l & El & Ll & Hl).
    { intros m H1 H2 k' K'. apply (Hk (S m)); [lia|lia|]. cbn [pow]. rewrite <- Rmult_assoc. exact K'. }
    rewrite El. cbn [bind]. exists (wrap32 (k - 1) :: l).
    assert (Hk1 : (1 <= k)%Z). { apply (Hk 1%nat); [lia|lia|]. rewrite pow_1. exact Lk. }
    assert (Hk2 : wrap32 (k - 1) = (k - 1)%Z). { apply wrap32_id. destruct Lk as [Lk _]. lia. }
    split; [reflexivity|]. split; [cbn; lia|]. intros [|b] Hb; cbn [nth].
    + rewrite Hk2, pow_1. replace (k - 1 + 1)%Z with k by lia. split; [exact Lk|lia].
    + destruct (Hl b) as [H1 H2]; [lia|]. split; [|exact H2].
      replace (E * exp du ^ S (S b)) with (E * exp du * exp du ^ S b) by (cbn [pow]; ring). exact H1.
Qed.

Lemma exp_pow x n : exp x ^ n = exp (INR n * x).
Proof.
  induction n as [|n IH]; [cbn; rewrite Rmult_0_l, exp_0; reflexivity|].
  cbn [pow]. rewrite IH, <- exp_plus. f_equal. rewrite S_INR. ring.
Qed.

(** a grid as the constructors accept it *)
Definition grid_ok (vals : list R) : Prop := (1 <= sizeZ vals < 2 ^ 32)%Z /\ increasing vals /\ 0 < getR vals 0.

Record hashed (g : egrid R) (vals : list R) (NB : nat) : Prop := {
  h_vals : g_vals g = vals;
  h_umin : g_umin g = ln (getR vals 0);
  h_du : g_du g = (ln (getR vals (sizeZ vals - 1)) - ln (getR vals 0)) / INR NB;
  h_len : length (g_ptrs g) = S NB;
  h_0 : nth 0 (g_ptrs g) 0%Z = 0%Z;
  h_b : getR vals 0 < getR vals (sizeZ vals - 1) -> forall b, (1 <= b <= NB)%nat ->
        lb_at vals (getR vals 0 * exp (INR b * g_du g)) (nth b (g_ptrs g) 0%Z + 1) /\ (0 <= nth b (g_ptrs g) 0)%Z }.

Lemma hash_grid_ok vals NB : grid_ok vals -> (1 <= NB)%nat -> exists g, @hash_grid R NumR vals NB = Ok g /\ hashed g vals NB.
Proof.
  intros (Hs & Hi & Hp) HN. unfold hash_grid. rewrite frontR_R, backR_R by lia. cbn [bind].
  change (@nofZ R NumR (Z.of_nat NB)) with (IZR (Z.of_nat NB)). rewrite <- INR_IZR_INZ.
  change (@nsub R NumR) with Rminus. change (@ndiv R NumR) with Rdiv. change (@nlog R NumR) with ln. set (du := (ln (getR vals (sizeZ vals - 1)) - ln (getR vals 0)) / INR NB).
  assert (HNB : 0 < INR NB) by (apply lt_0_INR; lia).
  destruct (Rlt_le_dec (getR vals 0) (getR vals (sizeZ vals - 1))) as [L|L].
  - assert (Hdu : 0 < du) by (apply Rdiv_lt_0_compat; [assert (ln (getR vals 0) < ln (getR vals (sizeZ vals - 1))) by (apply ln_increasing; assumption); lra|assumption]).
    destruct (hash_loop_spec vals du Hi (proj2 Hs) NB (getR vals 0)) as (l & El & Ll & Hl).
    { intros m H1 H2 k (K1 & K2 & K3). destruct (Z.eq_dec k 0) as [->|]; [|lia]. exfalso.
      specialize (K3 0%Z ltac:(lia)). rewrite exp_pow in K3.
      assert (1 < exp (INR m * du)). { rewrite <- exp_0. apply exp_increasing. apply Rmult_lt_0_compat; [apply lt_0_INR; lia|assumption]. }
      nra. }
    rewrite El. cbn [bind]. eexists; split; [reflexivity|]. split; cbn [g_vals g_ptrs g_umin g_du]; try reflexivity.
    + cbn; lia.
    + intros _ b [Hb1 Hb2]. destruct b as [|b]; [lia|]. cbn [nth]. rewrite <- exp_pow. apply Hl. lia.
  - (* all energies equal: the pointers are never used *)
    assert (Hany : forall n E, exists l, @hash_loop R NumR n vals du E = Ok l /\ length l = n).
    { induction n as [|n IH]; intros E; [exists []; split; reflexivity|]. cbn [hash_loop].
      destruct (lower_boundR vals (nmul E (nexp du)) Hi) as (k & Ek & _). rewrite Ek. cbn [bind].
      destruct (IH (nmul E (nexp du))) as (l & El & Ll). rewrite El. cbn [bind]. eexists; split; [reflexivity|]. cbn; lia. }
    destruct (Hany NB (getR vals 0)) as (l & El & Ll). 
    rewrite El. cbn [bind]. eexists; split; [reflexivity|]. split; cbn [g_vals g_ptrs g_umin g_du]; try reflexivity.
    + cbn; lia.
    + intros; lra.
Qed.

(** what a lookup must return: a bracketing index *)
Definition brackets (vals : list R) (E : R) (i : Z) : Prop :=
  (E <= getR vals 0 /\ i = 0%Z) \/
  (getR vals 0 < E /\ getR vals (sizeZ vals - 1) <= E /\ i = (sizeZ vals - 1)%Z) \/
  (getR vals 0 < E < getR vals (sizeZ vals - 1) /\ (0 <= i < sizeZ vals - 1)%Z /\ getR vals i < E <= getR vals (i + 1)).

Lemma nth_atZ l i : (0 <= i < sizeZ l)%Z -> atZ l i = Ok (nth (Z.to_nat i) l 0%Z).
Proof. apply atZ_nth. Qed.

Lemma get_lower_index_spec vals NB g : grid_ok vals -> (1 <= NB)%nat -> (Z.of_nat NB < 2 ^ 32 - 1)%Z -> hashed g vals NB ->
  forall E, exists i, @get_lower_index R NumR g E = Ok i /\ brackets vals E i.
Proof.
  intros (Hs & Hi & Hp) HN HN2 [Hv Hum Hdu Hlen H0 Hb] E. unfold get_lower_index. rewrite Hv.
  rewrite frontR_R, backR_R by lia. cbn [bind]. change (@nleb R NumR) with Rleb.
  destruct (Rleb_spec E (getR vals 0)) as [L|L].
  { exists 0%Z. split; [reflexivity|]. left; auto. }
  destruct (Rleb_spec (getR vals (sizeZ vals - 1)) E) as [U|U].
  { exists (sizeZ vals - 1)%Z. split; [reflexivity|]. right; left; auto. }
  assert (HNB : 0 < INR NB) by (apply lt_0_INR; lia).
  specialize (Hb ltac:(lra)).
  set (f := getR vals 0) in *. set (t := getR vals (sizeZ vals - 1)) in *. set (du := g_du g) in *.
  assert (Hln : ln f < ln E < ln t) by (split; apply ln_increasing; lra).
  assert (Hdu' : 0 < du) by (rewrite Hdu; apply Rdiv_lt_0_compat; lra).
  set (q := (ln E - ln f) / du).
  assert (Hq0 : 0 < q) by (apply Rdiv_lt_0_compat; lra).
  assert (HqN : q < INR NB).
  { unfold q. apply Rmult_lt_reg_r with du; [assumption|]. replace ((ln E - ln f) / du * du) with (ln E - ln f) by (field; lra).
    rewrite Hdu. replace (INR NB * ((ln t - ln f) / INR NB)) with (ln t - ln f) by (field; lra). lra. }
  pose proof (Int_part_spec q) as Hip. set (b := Int_part q) in *.
  assert (Hb0 : (0 <= b)%Z) by (apply Znot_lt_ge_sub || (destruct (Z_le_dec 0 b); [assumption|exfalso]; assert (IZR b <= -1) by (apply IZR_le; lia); lra)).
  assert (HbN : (b < Z.of_nat NB)%Z). { apply lt_IZR. rewrite <- INR_IZR_INZ. lra. }
  assert (Htr : @trunc_u32 R NumR ((ln E - g_umin g) / du) = Ok b).
  { rewrite Hum. fold q. unfold trunc_u32. cbn [nfloor NumR]. fold b.
    replace (0 <=? b)%Z with true by lia. replace (b <? 2 ^ 32)%Z with true by lia. reflexivity. }
  change (nsub (nlog E) (g_umin g)) with (ln E - g_umin g). change (@ndiv R NumR) with Rdiv. rewrite Htr. cbn [bind].
  assert (Hsz : sizeZ (g_ptrs g) = (Z.of_nat NB + 1)%Z) by (unfold sizeZ; lia).
  rewrite !nth_atZ by lia. cbn [bind].
  replace (Z.to_nat (b + 1)) with (S (Z.to_nat b)) by lia.
  destruct (Hb (S (Z.to_nat b)) ltac:(lia)) as [LB1 P1].
  set (p1 := nth (S (Z.to_nat b)) (g_ptrs g) 0%Z) in *.
  assert (Hp1 : (p1 + 1 <= sizeZ vals)%Z) by (destruct LB1; lia).
  rewrite wrap32_id by lia.
  (* upper bound energy *)
  assert (HEhi : E < f * exp (INR (S (Z.to_nat b)) * du)).
  { replace f with (exp (ln f)) by (apply exp_ln; lra). rewrite <- exp_plus. replace E with (exp (ln E)) by (apply exp_ln; lra).
    apply exp_increasing. rewrite S_INR, INR_IZR_INZ, Z2Nat.id by lia.
    assert (Hqd : q * du = ln E - ln f) by (unfold q; field; lra). nra. }
  set (p0 := nth (Z.to_nat b) (g_ptrs g) 0%Z).
  assert (Hp0 : (0 <= p0)%Z /\ (p0 <= p1 + 1)%Z /\ forall i, (0 <= i < p0)%Z -> getR vals i < E).
  { destruct (Z.eq_dec b 0) as [Eb|Nb].
    - unfold p0. rewrite Eb. change (Z.to_nat 0) with 0%nat. rewrite H0. repeat split; intros; lia.
    - destruct (Hb (Z.to_nat b) ltac:(lia)) as [LB0 P0]. fold p0 in LB0, P0.
      assert (HElo : f * exp (INR (Z.to_nat b) * du) <= E).
      { replace f with (exp (ln f)) by (apply exp_ln; lra). rewrite <- exp_plus. replace E with (exp (ln E)) by (apply exp_ln; lra).
        assert (ln f + INR (Z.to_nat b) * du <= ln E).
        { rewrite INR_IZR_INZ, Z2Nat.id by lia. assert (Hqd : q * du = ln E - ln f) by (unfold q; field; lra). nra. }
        destruct H as [H|H]; [left; apply exp_increasing; exact H|rewrite H; lra]. }
      destruct LB0 as (B1 & B2 & B3). destruct LB1 as (C1 & C2 & C3).
      split; [exact P0|]. split.
      + destruct (Z_le_dec p0 (p1 + 1)); [assumption|exfalso].
        specialize (B2 (p1 + 1)%Z ltac:(lia)). specialize (C3 (p1 + 1)%Z ltac:(lia)). lra.
      + intros i Hi'. specialize (B2 i ltac:(lia)). lra. }
  destruct Hp0 as (Q1 & Q2 & Q3).
  replace (sizeZ vals <? p1 + 1)%Z with false by lia. replace (sizeZ vals <? p0)%Z with false by lia. cbn [orb].
  destruct (lower_bound_rangeR vals E p0 (p1 + 1) Hi) as (k & Ek & Hk1 & Hk2); [lia|lia|exact Q3| |].
  { intros i Hi'. destruct LB1 as (C1 & C2 & C3). specialize (C3 i ltac:(lia)). lra. }
  rewrite Ek. cbn [bind]. destruct Hk2 as (K1 & K2 & K3).
  assert (Hk : (1 <= k)%Z). { destruct (Z.eq_dec k 0) as [->|]; [|lia]. specialize (K3 0%Z ltac:(lia)). unfold f in L. lra. }
  assert (Hk' : (k <= sizeZ vals - 1)%Z). { destruct (Z_le_dec k (sizeZ vals - 1)); [assumption|exfalso]. specialize (K2 (sizeZ vals - 1)%Z ltac:(lia)). unfold t in U. lra. }
  rewrite wrap64_id by lia. exists (k - 1)%Z. split; [reflexivity|].
  right; right. split; [unfold f, t in *; lra|]. split; [lia|]. replace (k - 1 + 1)%Z with k by lia.
  split; [apply K2; lia|apply K3; lia].
Qed.

(** constructors *)
Lemma make_grid_ok vals NB : grid_ok vals -> (1 <= NB)%nat ->
  exists g, @make_grid R NumR vals NB = Ok g /\ make_grid_ace vals NB = Ok g /\ hashed g vals NB.
Proof.
  intros G HN. destruct (hash_grid_ok vals NB G HN) as (g & Eg & Hg). exists g.
  destruct G as (Hs & Hi & Hp). unfold make_grid, make_grid_ace.
  rewrite (proj2 (is_sorted_increasing vals) Hi). cbn [guard bind]. rewrite frontR_R by lia. cbn [bind].
  change (@nofZ R NumR 0) with 0. change (@nltb R NumR) with Rltb. change (@nleb R NumR) with Rleb.
  replace (Rltb _ 0) with false by (symmetry; apply Rltb_false; lra).
  replace (Rleb _ 0) with false by (symmetry; apply Rleb_false; lra). auto.
Qed.
Lemma make_grid_rejects vals NB : (1 <= sizeZ vals)%Z -> ~ increasing vals \/ getR vals 0 < 0 -> @make_grid R NumR vals NB = Throw.
Proof.
  intros Hs H. unfold make_grid. destruct (is_sorted vals) eqn:S; [|reflexivity]. cbn [guard bind].
  rewrite frontR_R by lia. cbn [bind]. change (@nofZ R NumR 0) with 0. change (@nltb R NumR) with Rltb.
  apply is_sorted_increasing in S. destruct H as [H|H]; [tauto|].
  replace (Rltb _ 0) with true by (symmetry; apply Rltb_true; lra). reflexivity.
Qed.

Lemma brackets_unique vals E i j : (1 <= sizeZ vals)%Z -> increasing vals -> brackets vals E i -> brackets vals E j -> i = j.
Proof.
  intros Hs Hi B1 B2.
  destruct B1 as [[A1 A2]|[(A1 & A2 & A3)|(A1 & A2 & A3)]], B2 as [[C1 C2]|[(C1 & C2 & C3)|(C1 & C2 & C3)]]; try lra; try lia.
  destruct (Z.lt_trichotomy i j) as [L|[L|L]]; [|exact L|]; exfalso.
  - assert (getR vals (i + 1) <= getR vals j) by (apply Hi; lia). lra.
  - assert (getR vals (j + 1) <= getR vals i) by (apply Hi; lia). lra.
Qed.
