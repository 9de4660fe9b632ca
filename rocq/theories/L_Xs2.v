(** * Cross sections on a cell, the DBRC majorant, counterexamples *)
From Verif Require Import Base NumR L_Search L_SearchR M_Grid L_Grid L_Xs.
From Coq Require Import ZifyBool ZifyNat.
Local Open Scope R_scope.

Definition gridv (x : xsec R) : list R := g_vals (x_grid x).

Lemma xs_eval_cell x k E : xs_ok x -> strictly_increasing (gridv x) -> (x_index x <= k)%Z -> (k + 1 < sizeZ (gridv x))%Z ->
  getR (gridv x) k <= E <= getR (gridv x) (k + 1) ->
  @xs_eval R NumR x E = Ok (linear (getR (gridv x) k) (getR (x_vals x) (k - x_index x))
                         (getR (gridv x) (k + 1)) (getR (x_vals x) (k + 1 - x_index x)) E).
Proof.
  intros X SI H1 H2 H3. pose proof X as [G S I Z]. fold (gridv x) in *.
  assert (getR (gridv x) k < getR (gridv x) (k + 1)) by (apply SI; lia).
  destruct (Req_dec E (getR (gridv x) k)) as [->|N1].
  { unfold gridv at 1. rewrite xs_eval_grid_point; try assumption; [|fold (gridv x); lia]. f_equal. unfold linear. field. lra. }
  destruct (Req_dec E (getR (gridv x) (k + 1))) as [->|N2].
  { unfold gridv at 1. rewrite xs_eval_grid_point; try assumption; [|fold (gridv x); lia]. f_equal. unfold linear. field. lra. }
  destruct (xs_eval_spec x E X) as (v & Ev & V). rewrite Ev. f_equal.
  assert (Gi := strictly_increasing_increasing _ SI).
  destruct V as [B|B|i Hi Ei Li Mi|i Hi Hi2 Ei]; fold (gridv x) in *.
  - assert (getR (gridv x) (x_index x) <= getR (gridv x) k) by (apply Gi; lia). lra.
  - assert (getR (gridv x) (k + 1) <= getR (gridv x) (sizeZ (gridv x) - 1)) by (apply Gi; lia). lra.
  - destruct (Z_le_dec i k); [assert (getR (gridv x) i <= getR (gridv x) k) by (apply Gi; lia)|assert (getR (gridv x) (k + 1) <= getR (gridv x) i) by (apply Gi; lia)]; lra.
  - assert (i = k) as ->; [|reflexivity].
    destruct (Z_lt_dec i k); [assert (getR (gridv x) (i + 1) <= getR (gridv x) k) by (apply Gi; lia); lra|].
    destruct (Z_lt_dec k i); [assert (getR (gridv x) (k + 1) <= getR (gridv x) i) by (apply Gi; lia); lra|]. lia.
Qed.
Lemma xs_eval_below x E : xs_ok x -> E < getR (gridv x) (x_index x) -> @xs_eval R NumR x E = Ok 0.
Proof.
  intros [G S I Z] H. unfold xs_eval. rewrite S. rewrite atR by assumption. cbn [bind]. change (@nltb R NumR) with Rltb.
  replace (Rltb _ _) with true by (symmetry; apply Rltb_true; exact H). reflexivity.
Qed.
Lemma xs_eval_above x E : xs_ok x -> getR (gridv x) (sizeZ (gridv x) - 1) <= E ->
  @xs_eval R NumR x E = Ok (getR (x_vals x) (sizeZ (x_vals x) - 1)).
Proof.
  intros [G S I Z] H. destruct G as (Gs & Gi & Gp). unfold xs_eval. rewrite S. fold (gridv x) in *. rewrite atR by assumption. cbn [bind]. change (@nltb R NumR) with Rltb.
  assert (getR (gridv x) (x_index x) <= getR (gridv x) (sizeZ (gridv x) - 1)) by (apply Gi; lia).
  replace (Rltb _ _) with false by (symmetry; apply Rltb_false; lra).
  rewrite backR_R by lia. cbn [bind]. change (@nleb R NumR) with Rleb.
  replace (Rleb _ _) with true by (symmetry; apply Rleb_true; lra). apply backR_R. lia.
Qed.

Lemma max_loop_spec vals : forall n i m, (0 <= i)%Z -> (i + Z.of_nat n <= sizeZ vals)%Z ->
  exists M, @max_loop R NumR n vals i m = Ok M /\ m <= M /\ (forall k, (i <= k < i + Z.of_nat n)%Z -> getR vals k <= M).
Proof.
  induction n as [|n IH]; intros i m Hi Hs; cbn [max_loop].
  - exists m. split; [reflexivity|]. split; [lra|]. intros; lia.
  - rewrite atR by lia. cbn [bind]. change (@nltb R NumR) with Rltb.
    destruct (IH (i + 1)%Z (if Rltb m (getR vals i) then getR vals i else m)) as (M & EM & M1 & M2); [lia|lia|].
    exists M. split; [exact EM|]. destruct (Rltb_spec m (getR vals i)); (split; [lra|]; intros k Hk; destruct (Z.eq_dec k i) as [->|]; [lra|apply M2; lia]).
Qed.

Lemma linear_max x1 y1 x2 y2 a b x : x1 < x2 -> a <= x <= b ->
  linear x1 y1 x2 y2 x <= Rmax (linear x1 y1 x2 y2 a) (linear x1 y1 x2 y2 b).
Proof.
  intros H Hx. unfold linear. set (s := (y2 - y1) / (x2 - x1)).
  assert (E : forall u, y1 + (y2 - y1) * (u - x1) / (x2 - x1) = y1 + s * (u - x1)) by (intros; unfold s; field; lra).
  rewrite !E. unfold Rmax. destruct (Rle_dec 0 s); [|assert (s <= 0) by lra]; destruct (Rle_dec _ _); nra.
Qed.

Lemma max_xs_bounds x NB Emin Emax : xs_ok x -> nonneg (x_vals x) -> strictly_increasing (gridv x) -> x_index x = 0%Z ->
  (1 <= NB)%nat -> (Z.of_nat NB < 2 ^ 32 - 1)%Z -> hashed (x_grid x) (gridv x) NB ->
  getR (gridv x) 0 <= Emin -> Emin <= Emax ->
  exists M, @max_xs_value R NumR x Emin Emax = Ok M /\
    forall E, Emin <= E <= Emax -> exists v, @xs_eval R NumR x E = Ok v /\ v <= M.
Proof.
  intros X NN SI Hj HN HN2 HH H0 Hmm. pose proof X as [G S I Z]. fold (gridv x) in *. destruct G as (Gs & Gi & Gp).
  destruct (get_lower_index_spec (gridv x) NB (x_grid x) (conj Gs (conj Gi Gp)) HN HN2 HH Emin) as (i1 & E1 & B1).
  destruct (get_lower_index_spec (gridv x) NB (x_grid x) (conj Gs (conj Gi Gp)) HN HN2 HH Emax) as (i2 & E2 & B2).
  destruct (xs_eval_spec x Emin X) as (vmin & V1 & W1). destruct (xs_eval_spec x Emax X) as (vmax & V2 & W2).
  unfold max_xs_value. rewrite E1, V1, E2, V2. cbn [bind].
  assert (Hi1 : (0 <= i1 < sizeZ (gridv x))%Z) by (destruct B1 as [[? ?]|[(? & ? & ?)|(? & ? & ?)]]; lia).
  assert (Hi2 : (0 <= i2 < sizeZ (gridv x))%Z) by (destruct B2 as [[? ?]|[(? & ? & ?)|(? & ? & ?)]]; lia).
  destruct (max_loop_spec (x_vals x) (Z.to_nat (i2 - i1)) (i1 + 1)%Z (nmax vmin vmax)) as (M & EM & M1 & M2); [lia|lia|].
  exists M. split; [exact EM|].
  assert (Mv : vmin <= M /\ vmax <= M).
  { revert M1. unfold nmax. change (@nltb R NumR) with Rltb. destruct (Rltb_spec vmin vmax); lra. }
  (* indices strictly between the end energies are covered *)
  assert (Hlo : forall k, (0 <= k < sizeZ (gridv x))%Z -> Emin < getR (gridv x) k -> (i1 < k)%Z).
  { intros k Hk Hlt. destruct (Z_lt_dec i1 k); [assumption|exfalso].
    assert (getR (gridv x) k <= getR (gridv x) i1) by (apply Gi; lia).
    destruct B1 as [[? ->]|[(? & ? & ->)|(? & ? & ?)]]; lra. }
  assert (Hhi : forall k, (0 <= k < sizeZ (gridv x))%Z -> getR (gridv x) k < Emax -> (k <= i2)%Z).
  { intros k Hk Hlt. destruct B2 as [[? ?]|[(? & ? & ->)|(? & ? & ?)]]; [|lia|].
    - assert (getR (gridv x) 0 <= getR (gridv x) k) by (apply Gi; lia). lra.
    - destruct (Z_le_dec k i2); [assumption|exfalso]. assert (getR (gridv x) (i2 + 1) <= getR (gridv x) k) by (apply Gi; lia). lra. }
  assert (Hpt : forall k, (0 <= k < sizeZ (gridv x))%Z -> Emin <= getR (gridv x) k <= Emax -> getR (x_vals x) k <= M).
  { intros k Hk Hb. destruct (Req_dec Emin (getR (gridv x) k)) as [Q|Q].
    { rewrite Q in V1. unfold gridv in V1. rewrite xs_eval_grid_point in V1; try assumption; [|fold (gridv x); lia].
      injection V1 as V1. rewrite Hj, Z.sub_0_r in V1. rewrite V1. lra. }
    destruct (Req_dec Emax (getR (gridv x) k)) as [Q'|Q'].
    { rewrite Q' in V2. unfold gridv in V2. rewrite xs_eval_grid_point in V2; try assumption; [|fold (gridv x); lia].
      injection V2 as V2. rewrite Hj, Z.sub_0_r in V2. rewrite V2. lra. }
    apply M2. specialize (Hlo k Hk ltac:(lra)). specialize (Hhi k Hk ltac:(lra)). lia. }
  intros E HE. destruct (xs_eval_spec x E X) as (v & Ev & V). exists v. split; [exact Ev|].
  destruct V as [B|B|i Hi Ei Li Mi|i Hi Hi2' Ei]; fold (gridv x) in *.
  - pose proof (xs_value_nonneg x Emin vmin X NN W1). lra.
  - rewrite xs_eval_above in V2 by (try assumption; lra). injection V2 as <-. lra.
  - rewrite Hj in *. rewrite Z.sub_0_r. apply Hpt; [lia|lra].
  - rewrite Hj in *. rewrite !Z.sub_0_r.
    set (L := linear (getR (gridv x) i) (getR (x_vals x) i) (getR (gridv x) (i + 1)) (getR (x_vals x) (i + 1))).
    assert (Hc : getR (gridv x) i < getR (gridv x) (i + 1)) by lra.
    assert (La : L (Rmax Emin (getR (gridv x) i)) <= M).
    { unfold Rmax. destruct (Rle_dec Emin (getR (gridv x) i)) as [Q|Q].
      - replace (L (getR (gridv x) i)) with (getR (x_vals x) i) by (unfold L, linear; field; lra). apply Hpt; [lia|lra].
      - rewrite (xs_eval_cell x i Emin) in V1; try assumption; try lia; [|lra]. injection V1 as V1. rewrite Hj, !Z.sub_0_r in V1. fold L in V1. rewrite V1. lra. }
    assert (Lb : L (Rmin Emax (getR (gridv x) (i + 1))) <= M).
    { unfold Rmin. destruct (Rle_dec Emax (getR (gridv x) (i + 1))) as [Q|Q].
      - rewrite (xs_eval_cell x i Emax) in V2; try assumption; try lia; [|lra]. injection V2 as V2. rewrite Hj, !Z.sub_0_r in V2. fold L in V2. rewrite V2. lra.
      - replace (L (getR (gridv x) (i + 1))) with (getR (x_vals x) (i + 1)) by (unfold L, linear; field; lra). apply Hpt; [lia|lra]. }
    eapply Rle_trans; [apply (linear_max _ _ _ _ (Rmax Emin (getR (gridv x) i)) (Rmin Emax (getR (gridv x) (i + 1))) E Hc)|].
    + split; [apply Rmax_lub; lra|apply Rmin_glb; lra].
    + apply Rmax_lub; assumption.
Qed.

(** ** counterexamples: a grid [1;2;4] *)
Definition gex : list R := [1; 2; 4].
Lemma gex_ok : grid_ok gex.
Proof.
  split; [cbn; lia|]. split; [|cbn; lra]. apply is_sorted_increasing. cbn. rnum. rdec. reflexivity.
Qed.
Lemma gex_strict : strictly_increasing gex.
Proof.
  intros i j Hi Hij Hj. change (sizeZ gex) with 3%Z in Hj.
  assert (i = 0 /\ j = 1 \/ i = 0 /\ j = 2 \/ i = 1 /\ j = 2)%Z as [[-> ->]|[[-> ->]|[-> ->]]] by lia; cbv [getR gex nth Z.to_nat Pos.to_nat Pos.iter_op Init.Nat.add]; lra.
Qed.
Ltac gexb := unfold brackets; change (sizeZ gex) with 3%Z; change (getR gex 0) with 1; change (getR gex (3 - 1)) with 4;
  change (getR gex (0 + 1)) with 2.
(** any object built from that grid *)
Section Ex.
  Variable g : egrid R.
  Variable NB : nat.
  Hypothesis HNB : (1 <= NB)%nat.
  Hypothesis HNB2 : (Z.of_nat NB < 2 ^ 32 - 1)%Z.
  Hypothesis Hg : hashed g gex NB.
  Let gli E := get_lower_index_spec gex NB g gex_ok HNB HNB2 Hg E.
  Lemma gex_index E i : brackets gex E i -> @get_lower_index R NumR g E = Ok i.
  Proof. intros B. destruct (gli E) as (k & Ek & Bk). rewrite Ek. f_equal. eapply brackets_unique; [|apply gex_ok|exact Bk|exact B]. cbn; lia. Qed.
  (** threshold: at the first energy of a cross section starting at index 1 *)
  Lemma threshold_disagree : exists x, @make_xs R NumR [5; 7] g 1 = Ok x /\
    @xs_eval R NumR x 2 = Ok 5 /\ (let! i := get_lower_index g 2 in @xs_eval_i R NumR x 2 i) = Ok 0.
  Proof.
    pose proof (h_vals _ _ _ Hg) as Hv.
    assert (E1 : @make_xs R NumR [5; 7] g 1 = Ok (mkXs g [5; 7] 1 false)).
    { unfold make_xs. rewrite Hv. cbn. rnum. rdec. reflexivity. }
    eexists. split; [exact E1|]. rewrite (gex_index 2 0).
    - split; [unfold xs_eval; cbn [x_single x_grid x_vals x_index]; rewrite Hv; unfold lower_bound_range; reval; reflexivity|].
      cbn [bind]. unfold xs_eval_i. cbn [x_single x_grid x_vals x_index]. rewrite Hv. reflexivity.
    - gexb; right; right. split; [lra|]. split; [lia|lra].
  Qed.
  (** below the grid the indexed evaluation extrapolates, to a negative value *)
  Lemma below_negative : exists x, @make_xs R NumR [1; 5; 7] g 0 = Ok x /\
    @xs_eval R NumR x (1/2) = Ok 0 /\ (let! i := get_lower_index g (1/2) in @xs_eval_i R NumR x (1/2) i) = Ok (-1).
  Proof.
    pose proof (h_vals _ _ _ Hg) as Hv.
    assert (E1 : @make_xs R NumR [1; 5; 7] g 0 = Ok (mkXs g [1; 5; 7] 0 false)).
    { unfold make_xs. rewrite Hv. cbn. rnum. rdec. reflexivity. }
    eexists. split; [exact E1|]. rewrite (gex_index (1/2) 0).
    - split; [unfold xs_eval; cbn [x_single x_grid x_vals x_index]; rewrite Hv; reval; reflexivity|].
      cbn [bind]. unfold xs_eval_i. cbn [x_single x_grid x_vals x_index]. rewrite Hv. reval. f_equal. lra.
    - gexb; left. split; [lra|reflexivity].
  Qed.
  (** DBRC: a cross section that does not start at index 0 is read out of range *)
  Lemma dbrc_oob : exists x, @make_xs R NumR [5; 7] g 1 = Ok x /\ @max_xs_value R NumR x 1 4 = UB.
  Proof.
    pose proof (h_vals _ _ _ Hg) as Hv.
    assert (E1 : @make_xs R NumR [5; 7] g 1 = Ok (mkXs g [5; 7] 1 false)).
    { unfold make_xs. rewrite Hv. cbn. rnum. rdec. reflexivity. }
    eexists. split; [exact E1|]. unfold max_xs_value. cbn [x_grid].
    rewrite (gex_index 1 0), (gex_index 4 2).
    - unfold xs_eval; cbn [x_single x_grid x_vals x_index]; rewrite Hv. reval. reflexivity.
    - gexb; right; left. split; [lra|]. split; [lra|reflexivity].
    - gexb; left. split; [lra|reflexivity].
  Qed.
  (** DBRC: an interval starting below the grid misses the first tabulated value *)
  Lemma dbrc_misses_first : exists x M v, @make_xs R NumR [9; 5; 7] g 0 = Ok x /\ @max_xs_value R NumR x (1/2) (3/2) = Ok M /\
    @xs_eval R NumR x 1 = Ok v /\ (1/2 <= 1 <= 3/2) /\ M < v.
  Proof.
    pose proof (h_vals _ _ _ Hg) as Hv.
    assert (E1 : @make_xs R NumR [9; 5; 7] g 0 = Ok (mkXs g [9; 5; 7] 0 false)).
    { unfold make_xs. rewrite Hv. cbn. rnum. rdec. reflexivity. }
    do 3 eexists. split; [exact E1|]. unfold max_xs_value. cbn [x_grid].
    rewrite (gex_index (1/2) 0), (gex_index (3/2) 0).
    - unfold xs_eval; cbn [x_single x_grid x_vals x_index]; rewrite Hv. split; [reval; reflexivity|]. split; [reval; reflexivity|]. lra.
    - gexb; right; right. split; [lra|]. split; [lia|lra].
    - gexb; left. split; [lra|reflexivity].
  Qed.
End Ex.
