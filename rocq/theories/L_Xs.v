(** * Cross sections (exact arithmetic) *)
From Verif Require Import Base NumR L_Search L_SearchR M_Grid L_Grid.
From Coq Require Import ZifyBool ZifyNat.
Local Open Scope R_scope.

(** lower_bound on a subrange of a sorted vector, nothing assumed outside the range *)
Lemma lower_bound_local_loop v x : increasing v -> forall fuel first len, (Z.to_nat len < fuel)%nat -> (0 <= first)%Z -> (0 <= len)%Z ->
  (first + len <= sizeZ v)%Z ->
  exists k, @lower_bound_loop R NumR fuel v first len x = Ok k /\ (first <= k <= first + len)%Z /\
    (forall i, (first <= i < k)%Z -> getR v i < x) /\ (forall i, (k <= i < first + len)%Z -> x <= getR v i).
Proof.
  intros Hi. induction fuel as [|f IH]; intros first len Hf H1 H2 H3; [lia|]. cbn [lower_bound_loop].
  destruct (len <=? 0)%Z eqn:L.
  - exists first. split; [reflexivity|]. split; [lia|]. split; intros; lia.
  - assert (Hh : (0 <= len / 2 < len)%Z) by (split; [apply Z.div_pos; lia|apply Z.div_lt; lia]).
    set (half := (len / 2)%Z) in *. rewrite atR by lia. cbn [bind]. change (@nltb R NumR) with Rltb.
    destruct (Rltb_spec (getR v (first + half)) x) as [C|C].
    + destruct (IH (first + half + 1)%Z (len - half - 1)%Z) as (k & Ek & K1 & K2 & K3); [lia|lia|lia|lia|].
      exists k. split; [exact Ek|]. split; [lia|]. split.
      * intros i Hi'. destruct (Z_le_dec (first + half + 1) i); [apply K2; lia|].
        assert (getR v i <= getR v (first + half)) by (apply Hi; lia). lra.
      * intros i Hi'. apply K3. lia.
    + destruct (IH first half) as (k & Ek & K1 & K2 & K3); [lia|lia|lia|lia|].
      exists k. split; [exact Ek|]. split; [lia|]. split.
      * intros i Hi'. apply K2. lia.
      * intros i Hi'. destruct (Z_lt_dec i (first + half)); [apply K3; lia|].
        assert (getR v (first + half) <= getR v i) by (apply Hi; lia). lra.
Qed.
Lemma lower_bound_local v x lo hi : increasing v -> (0 <= lo <= hi)%Z -> (hi <= sizeZ v)%Z ->
  exists k, @lower_bound_range R NumR v lo hi x = Ok k /\ (lo <= k <= hi)%Z /\
    (forall i, (lo <= i < k)%Z -> getR v i < x) /\ (forall i, (k <= i < hi)%Z -> x <= getR v i).
Proof.
  intros Hi H1 H2. unfold lower_bound_range.
  destruct (lower_bound_local_loop v x Hi (S (length v)) lo (hi - lo)) as (k & Ek & K1 & K2 & K3); [unfold sizeZ in *; lia|lia|lia|lia|].
  exists k. split; [exact Ek|]. split; [lia|]. split; [exact K2|]. intros i Hi'. apply K3. lia.
Qed.

(** ** valid cross sections *)
Record xs_ok (x : xsec R) : Prop := {
  xo_grid : grid_ok (g_vals (x_grid x));
  xo_single : x_single x = false;
  xo_idx : (0 <= x_index x < sizeZ (g_vals (x_grid x)))%Z;
  xo_size : sizeZ (x_vals x) = (sizeZ (g_vals (x_grid x)) - x_index x)%Z }.
Definition nonneg (l : list R) : Prop := forall v, In v l -> 0 <= v.

Lemma any_negative_R l : @any_negative R NumR l = false <-> nonneg l.
Proof.
  unfold any_negative, nonneg. change (@nltb R NumR) with Rltb. change (@nofZ R NumR 0) with 0. split.
  - intros H v Hv. destruct (Rle_lt_dec 0 v); [assumption|exfalso].
    assert (existsb (fun v => Rltb v 0) l = true) by (apply existsb_exists; exists v; split; [exact Hv|apply Rltb_true; assumption]). congruence.
  - intros H. destruct (existsb _ l) eqn:E; [|reflexivity]. apply existsb_exists in E as (v & Hv & E). apply Rltb_true in E.
    specialize (H v Hv). lra.
Qed.

Lemma make_xs_spec vals g index : grid_ok (g_vals g) -> (0 <= index < 2 ^ 32)%Z ->
  let c := (index < sizeZ (g_vals g))%Z /\ nonneg vals /\ sizeZ vals = (sizeZ (g_vals g) - index)%Z in
  (c /\ exists x, @make_xs R NumR vals g index = Ok x /\ xs_ok x /\ x_grid x = g /\ x_vals x = vals /\ x_index x = index) \/
  (~ c /\ make_xs vals g index = Throw).
Proof.
  intros G Hx c. unfold c. pose proof G as (Hs & _). unfold make_xs. rewrite wrap32_id by lia.
  destruct (sizeZ (g_vals g) <=? index)%Z eqn:A; [right; split; [lia|reflexivity]|].
  destruct (any_negative vals) eqn:B.
  { assert (~ nonneg vals) by (rewrite <- any_negative_R; congruence). right; split; [tauto|reflexivity]. }
  apply any_negative_R in B. rewrite wrap64_id by lia.
  destruct (sizeZ (g_vals g) - index =? sizeZ vals)%Z eqn:C; cbn [negb].
  - left. split; [split; [lia|split; [assumption|lia]]|]. eexists. split; [reflexivity|]. cbn. split; [split; cbn; try assumption; try lia; reflexivity|auto].
  - right; split; [lia|reflexivity].
Qed.

(** ** evaluation *)
Definition linear (x1 y1 x2 y2 x : R) : R := y1 + (y2 - y1) * (x - x1) / (x2 - x1).
Lemma lin_linear E El Eh sl sh : El < Eh -> @lin R NumR E El Eh sl sh = linear El sl Eh sh E.
Proof. intros. unfold lin, linear. rnum. field. lra. Qed.

(** the specification of a cross section's value at E.  [k] counts from the start of the common energy grid. *)
Inductive xs_value (x : xsec R) (E : R) : R -> Prop :=
| xv_below : E < getR (g_vals (x_grid x)) (x_index x) -> xs_value x E 0
| xv_above : getR (g_vals (x_grid x)) (sizeZ (g_vals (x_grid x)) - 1) <= E ->
    xs_value x E (getR (x_vals x) (sizeZ (x_vals x) - 1))
| xv_point k : (x_index x <= k < sizeZ (g_vals (x_grid x)))%Z -> E = getR (g_vals (x_grid x)) k ->
    (forall i, (x_index x <= i < k)%Z -> getR (g_vals (x_grid x)) i < E) ->
    E < getR (g_vals (x_grid x)) (sizeZ (g_vals (x_grid x)) - 1) ->
    xs_value x E (getR (x_vals x) (k - x_index x))
| xv_between k : (x_index x <= k)%Z -> (k + 1 < sizeZ (g_vals (x_grid x)))%Z ->
    getR (g_vals (x_grid x)) k < E < getR (g_vals (x_grid x)) (k + 1) ->
    xs_value x E (linear (getR (g_vals (x_grid x)) k) (getR (x_vals x) (k - x_index x))
                         (getR (g_vals (x_grid x)) (k + 1)) (getR (x_vals x) (k + 1 - x_index x)) E).

Lemma xs_eval_spec x E : xs_ok x -> exists v, @xs_eval R NumR x E = Ok v /\ xs_value x E v.
Proof.
  intros [G S I Z]. destruct G as (Gs & Gi & Gp). unfold xs_eval. rewrite S.
  set (gv := g_vals (x_grid x)) in *. set (j := x_index x) in *.
  rewrite atR by lia. cbn [bind]. change (@nltb R NumR) with Rltb.
  destruct (Rltb_spec E (getR gv j)) as [A|A].
  { eexists; split; [reflexivity|]. change (@nofZ R NumR 0) with 0. apply xv_below. exact A. }
  rewrite backR_R by lia. cbn [bind]. change (@nleb R NumR) with Rleb.
  destruct (Rleb_spec (getR gv (sizeZ gv - 1)) E) as [B|B].
  { rewrite backR_R by lia. eexists; split; [reflexivity|]. apply xv_above. exact B. }
  destruct (lower_bound_local gv E j (sizeZ gv) Gi) as (k & Ek & K1 & K2 & K3); [lia|lia|].
  rewrite Ek. cbn [bind].
  assert (Hk : (k < sizeZ gv)%Z).
  { destruct (Z_lt_dec k (sizeZ gv)); [assumption|]. specialize (K2 (sizeZ gv - 1)%Z ltac:(lia)). lra. }
  rewrite atR by lia. cbn [bind]. change (@neqb R NumR) with Reqb.
  destruct (Reqb_spec E (getR gv k)) as [C|C].
  - rewrite atR by lia. eexists; split; [reflexivity|]. apply xv_point; try assumption. fold gv j; lia.
  - assert (E < getR gv k) by (specialize (K3 k ltac:(lia)); lra).
    assert (j < k)%Z. { destruct (Z.eq_dec j k) as [<-|]; [lra|lia]. }
    assert (getR gv (k - 1) < E) by (apply K2; lia).
    replace (j + (k - j - 1))%Z with (k - 1)%Z by lia. replace (k - 1 + 1)%Z with k by lia.
    rewrite !atR by lia. cbn [bind]. eexists; split; [reflexivity|].
    rewrite lin_linear by lra.
    replace (k - j - 1 + 1)%Z with (k - 1 + 1 - j)%Z by lia. replace (k - j - 1)%Z with (k - 1 - j)%Z by lia.
    replace k with (k - 1 + 1)%Z at 3 by lia.
    apply xv_between; fold gv j; [lia|lia|]. replace (k - 1 + 1)%Z with k by lia. split; assumption.
Qed.

Lemma linear_between x1 y1 x2 y2 x : x1 < x2 -> x1 <= x <= x2 -> Rmin y1 y2 <= linear x1 y1 x2 y2 x <= Rmax y1 y2.
Proof.
  intros H Hx. unfold linear. set (t := (x - x1) / (x2 - x1)).
  assert (Ht : 0 <= t <= 1).
  { unfold t. split; [apply Rmult_le_pos; [lra|left; apply Rinv_0_lt_compat; lra]|].
    apply Rmult_le_reg_r with (x2 - x1); [lra|]. replace ((x - x1) / (x2 - x1) * (x2 - x1)) with (x - x1) by (field; lra). lra. }
  replace ((y2 - y1) * (x - x1) / (x2 - x1)) with ((y2 - y1) * t) by (unfold t; field; lra).
  unfold Rmin, Rmax. destruct (Rle_dec y1 y2); nra.
Qed.
Lemma getR_nonneg l i : nonneg l -> 0 <= getR l i.
Proof.
  intros H. unfold getR. destruct (Nat.lt_ge_cases (Z.to_nat i) (length l)) as [L|L].
  - apply H, nth_In, L. - rewrite nth_overflow by assumption. lra.
Qed.
Lemma xs_value_nonneg x E v : xs_ok x -> nonneg (x_vals x) -> xs_value x E v -> 0 <= v.
Proof.
  intros [G S I Z] H V. destruct V; try (apply getR_nonneg; assumption); [lra|].
  pose proof (linear_between (getR (g_vals (x_grid x)) k) (getR (x_vals x) (k - x_index x)) (getR (g_vals (x_grid x)) (k + 1)) (getR (x_vals x) (k + 1 - x_index x)) E ltac:(lra) ltac:(lra)) as [L _].
  eapply Rle_trans; [|exact L]. apply Rmin_glb; apply getR_nonneg; assumption.
Qed.

(** at the energies of a strictly increasing grid the tabulated value is returned *)
Lemma xs_eval_grid_point x i : xs_ok x -> strictly_increasing (g_vals (x_grid x)) -> (x_index x <= i < sizeZ (g_vals (x_grid x)))%Z ->
  @xs_eval R NumR x (getR (g_vals (x_grid x)) i) = Ok (getR (x_vals x) (i - x_index x)).
Proof.
  intros X SI Hi. destruct (xs_eval_spec x (getR (g_vals (x_grid x)) i) X) as (v & Ev & V). rewrite Ev. f_equal.
  destruct X as [G S I Z]. set (gv := g_vals (x_grid x)) in *.
  destruct V as [B|B|k Hk Ek Lk Mk|k Hk Hk2 Ek]; [fold gv in B|fold gv in B|fold gv in Hk, Ek, Lk, Mk|fold gv in Hk2, Ek].
  - exfalso. destruct (Z.eq_dec (x_index x) i) as [<-|]; [lra|]. assert (getR gv (x_index x) < getR gv i) by (apply SI; lia). lra.
  - destruct (Z.eq_dec i (sizeZ gv - 1)) as [->|]; [f_equal; lia|]. assert (getR gv i < getR gv (sizeZ gv - 1)) by (apply SI; lia). lra.
  - destruct (Z.lt_trichotomy i k) as [L|[->|L]]; [|reflexivity|]; exfalso; [assert (getR gv i < getR gv k)|assert (getR gv k < getR gv i)]; try (apply SI; lia); lra.
  - exfalso. destruct (Z_le_dec i k); [assert (getR gv i <= getR gv k) by (apply strictly_increasing_increasing; try assumption; lia)|assert (getR gv (k + 1) <= getR gv i) by (apply strictly_increasing_increasing; try assumption; lia)]; lra.
Qed.

(** ** agreement of the three evaluations *)
Lemma xs_eval_i_agrees x E i : xs_ok x -> strictly_increasing (g_vals (x_grid x)) -> brackets (g_vals (x_grid x)) E i ->
  getR (g_vals (x_grid x)) 0 <= E -> (E = getR (g_vals (x_grid x)) (x_index x) -> x_index x = 0%Z \/ (sizeZ (g_vals (x_grid x)) - 1 <= i)%Z) ->
  @xs_eval_i R NumR x E i = @xs_eval R NumR x E.
Proof.
  intros X SI B H0 Hne. pose proof X as [G S I Z]. destruct G as (Gs & Gi & Gp). destruct (xs_eval_spec x E X) as (v & Ev & V).
  rewrite Ev. unfold xs_eval_i. rewrite S. set (gv := g_vals (x_grid x)) in *. set (j := x_index x) in *.
  assert (Hi : (0 <= i < sizeZ gv)%Z) by (destruct B as [[? ?]|[(? & ? & ?)|(? & ? & ?)]]; lia).
  rewrite wrap64_id by lia.
  destruct (i <? j)%Z eqn:C1.
  { (* below the threshold index *)
    assert (E <= getR gv j).
    { destruct B as [[B1 B2]|[(B1 & B2 & B3)|(B1 & B2 & B3)]]; [|lia|].
      - assert (getR gv 0 <= getR gv j) by (apply Gi; lia). lra.
      - assert (getR gv (i + 1) <= getR gv j) by (apply Gi; lia). lra. }
    assert (E <> getR gv j) by (intros Eq; specialize (Hne Eq); lia).
    assert (Ev' : @xs_eval R NumR x E = Ok 0).
    { unfold xs_eval. rewrite S. fold gv j. rewrite atR by lia. cbn [bind]. change (@nltb R NumR) with Rltb.
      replace (Rltb E (getR gv j)) with true by (symmetry; apply Rltb_true; lra). reflexivity. }
    rewrite Ev in Ev'. rewrite Ev'. reflexivity. }
  destruct (j + sizeZ (x_vals x) - 1 <=? i)%Z eqn:C2.
  { assert (i = sizeZ gv - 1)%Z by lia. subst i.
    assert (getR gv (sizeZ gv - 1) <= E).
    { destruct B as [[B1 B2]|[(B1 & B2 & B3)|(B1 & B2 & B3)]]; [|assumption|lia]. rewrite B2. lra. }
    rewrite backR_R by lia. f_equal.
    assert (Ev' : @xs_eval R NumR x E = Ok (getR (x_vals x) (sizeZ (x_vals x) - 1))).
    { unfold xs_eval. rewrite S. fold gv j. rewrite atR by lia. cbn [bind]. change (@nltb R NumR) with Rltb.
      assert (getR gv j <= getR gv (sizeZ gv - 1)) by (apply Gi; lia).
      replace (Rltb E (getR gv j)) with false by (symmetry; apply Rltb_false; lra).
      rewrite backR_R by lia. cbn [bind]. change (@nleb R NumR) with Rleb.
      replace (Rleb _ _) with true by (symmetry; apply Rleb_true; lra). apply backR_R. lia. }
    rewrite Ev in Ev'. injection Ev' as <-. reflexivity. }
  replace (j + (i - j))%Z with i by lia. rewrite !atR by lia. cbn [bind]. f_equal.
  assert (Hlt : getR gv i < getR gv (i + 1)) by (apply SI; lia).
  rewrite lin_linear by assumption.
  assert (HE : getR gv i <= E <= getR gv (i + 1)).
  { destruct B as [[B1 B2]|[(B1 & B2 & B3)|(B1 & B2 & B3)]]; [|lia|lra]. subst i. lra. }
  destruct V as [B1|B1|k Hk Ek Lk Mk|k Hk Hk2 Ek]; [fold gv in B1; fold j in B1|fold gv in B1|fold gv in Hk, Ek, Lk, Mk; fold j in Hk, Lk|fold gv in Hk2, Ek; fold j in Hk]; fold gv j.
  - assert (getR gv j <= getR gv i) by (apply Gi; lia). lra.
  - assert (getR gv (i + 1) <= getR gv (sizeZ gv - 1)) by (apply Gi; lia).
    assert (E = getR gv (i + 1)) by lra. assert (i + 1 = sizeZ gv - 1)%Z.
    { destruct (Z.eq_dec (i + 1) (sizeZ gv - 1)); [assumption|]. assert (getR gv (i + 1) < getR gv (sizeZ gv - 1)) by (apply SI; lia). lra. }
    replace (sizeZ (x_vals x) - 1)%Z with (i - j + 1)%Z by lia. unfold linear. rewrite H1. field. lra.
  - assert (k = i \/ k = i + 1)%Z as [-> | ->].
    { destruct (Z_lt_dec k i); [assert (getR gv k < getR gv i) by (apply SI; lia); lra|].
      destruct (Z_lt_dec (i + 1) k); [assert (getR gv (i + 1) < getR gv k) by (apply SI; lia); lra|]. lia. }
    + unfold linear. rewrite Ek. field. lra.
    + unfold linear. rewrite Ek. replace (i + 1 - j)%Z with (i - j + 1)%Z by lia. field. lra.
  - assert (k = i) as ->.
    { destruct (Z_lt_dec k i); [assert (getR gv (k + 1) <= getR gv i) by (apply Gi; lia); lra|].
      destruct (Z_lt_dec i k); [assert (getR gv (i + 1) <= getR gv k) by (apply Gi; lia); lra|]. lia. }
    replace (i + 1 - j)%Z with (i - j + 1)%Z by lia. reflexivity.
Qed.
Lemma xs_eval_ilh_agrees x E i : xs_ok x -> (0 <= i < sizeZ (g_vals (x_grid x)))%Z ->
  @xs_eval_ilh R NumR x E i (getR (g_vals (x_grid x)) i) (getR (g_vals (x_grid x)) (i + 1)) = xs_eval_i x E i.
Proof.
  intros X Hi. pose proof X as [G S I Z]. unfold xs_eval_ilh, xs_eval_i. rewrite S. set (gv := g_vals (x_grid x)) in *. set (j := x_index x) in *.
  destruct G as (Gs & Gi & Gp). rewrite wrap64_id by lia.
  destruct (i <? j)%Z eqn:C1; [reflexivity|]. destruct (j + sizeZ (x_vals x) - 1 <=? i)%Z eqn:C2; [reflexivity|].
  replace (j + (i - j))%Z with i by lia. rewrite !(atR gv) by lia. reflexivity.
Qed.
