(** * Corollaries on Tabulated1D used by the property theorems *)
From Coquelicot Require Import Coquelicot.
From Verif Require Import Base NumR NumF M_Interp M_Tab1D S_Interp S_Tab1D L_Search L_SearchR L_Interp L_Interp2 L_InterpF
  L_Tab1D L_Tab1DR L_Tab1DI L_OrderF.
From Coq Require Import ZifyBool ZifyNat.
Local Open Scope R_scope.

(** at and above the last abscissa, if it is not repeated *)
Lemma tab_value_last NBT INT x y t : valid_breakpoints NBT (sizeZ x) -> (sizeZ x < 18446744073709551616)%Z ->
  make_tab NBT INT x y = Ok t -> strictly_increasing x ->
  forall v, getR x (sizeZ x - 1) <= v -> tab_eval t v = Ok (getR y (sizeZ x - 1)).
Proof.
  intros Hv Big H SI v Hle. destruct (Rle_lt_or_eq_dec _ _ Hle) as [L|E].
  { eapply tab_value; eauto. }
  subst v. destruct (make_tab_inv _ _ _ _ _ Hv Big H) as (rs & -> & C & Hsz & Hx & Hpos).
  destruct Hv as [Hne Hinc].
  unfold tab_eval; cbn [t_x t_regions]. rewrite frontR_R, backR_R by lia. cbn [bind].
  change (nleb (getR x (sizeZ x - 1)) (getR x 0)) with (Rleb (getR x (sizeZ x - 1)) (getR x 0)).
  change (nleb (getR x (sizeZ x - 1)) (getR x (sizeZ x - 1))) with (Rleb (getR x (sizeZ x - 1)) (getR x (sizeZ x - 1))).
  destruct (Rleb_spec (getR x (sizeZ x - 1)) (getR x 0)) as [Q|Q].
  - assert (sizeZ x = 1)%Z as S1.
    { destruct (Z.eq_dec (sizeZ x) 1); [assumption|]. specialize (SI 0 (sizeZ x - 1))%Z. 
      specialize (SI ltac:(lia) ltac:(lia) ltac:(lia)). lra. }
    destruct NBT as [|h q]; [easy|]. destruct INT as [|i is]; [inversion C|].
    destruct (chain_first _ _ _ _ _ _ _ _ C) as (rs' & -> & B1 & B2).
    cbn [frontR atZ Z.to_nat nth_error Z.leb Z.compare bind].
    rewrite S1. cbn [Z.sub Z.add Z.opp Z.pos_sub].
    apply range_eval_low; try assumption; try lia. rewrite S1 in Q; exact Q.
  - rdec. destruct (chain_last _ _ _ _ _ _ _ C Hinc Hne) as (lowl & i & L1 & ->). cbn [bind].
    destruct (Z.eq_dec lowl (sizeZ x - 1)) as [->|Hn].
    + apply range_eval_low; try assumption; try lia; lra.
    + apply range_eval_high; try assumption; try lia; try lra; apply SI; lia.
Qed.

Lemma strictly_increasing_inj x i j : strictly_increasing x -> (0 <= i < sizeZ x)%Z -> (0 <= j < sizeZ x)%Z ->
  getR x i = getR x j -> i = j.
Proof.
  intros H Hi Hj E. destruct (Z.lt_total i j) as [L|[L|L]]; [|exact L|].
  - specialize (H i j ltac:(lia) L ltac:(lia)). lra.
  - specialize (H j i ltac:(lia) L ltac:(lia)). lra.
Qed.

(** segments whose data suit their law *)
Definition valid_segments (NBT : list Z) (INT : list interpolation) (x y : list R) : Prop :=
  forall j i, (0 <= j)%Z -> (j + 1 < sizeZ x)%Z -> segment_law NBT INT j = Some i ->
    valid_points i (getR x j) (getR y j) (getR x (j + 1)) (getR y (j + 1)).

(** at every abscissa of a strictly increasing table the tabulated ordinate is returned, unless the
    segment on its left is a Histogram *)
Lemma tab_value_grid NBT INT x y t : valid_breakpoints NBT (sizeZ x) -> (sizeZ x < 18446744073709551616)%Z ->
  make_tab NBT INT x y = Ok t -> strictly_increasing x -> valid_segments NBT INT x y ->
  forall k, (0 <= k < sizeZ x)%Z ->
  ((0 < k < sizeZ x - 1)%Z -> segment_law NBT INT (k - 1) <> Some Histogram) ->
  tab_eval t (getR x k) = Ok (getR y k).
Proof.
  intros Hv Big H SI HS k Hk Hh.
  destruct (Z.eq_dec k 0) as [->|K0]; [eapply tab_value; eauto; lra|].
  destruct (Z.eq_dec k (sizeZ x - 1)) as [->|K1]; [eapply tab_value_last; eauto; lra|].
  assert (getR x 0 < getR x k < getR x (sizeZ x - 1)) as B by (split; apply SI; lia).
  destruct (tab_value _ _ _ _ _ Hv Big H) as (_ & _ & M). destruct (M _ B) as (w & -> & I).
  destruct I as [(j & J1 & J2 & ->)|(j & i & J1 & J2 & J3 & J4 & ->)].
  - apply strictly_increasing_inj in J2; [subst; reflexivity | assumption | lia | lia].
  - assert (k = j + 1)%Z as ->.
    { destruct J3 as [J3 J3']. destruct (Z_le_dec k j) as [L|L].
      - pose proof (strictly_increasing_increasing _ SI k j ltac:(lia) ltac:(lia) ltac:(lia)). lra.
      - destruct (Z.eq_dec k (j + 1)); [assumption|]. specialize (SI (j + 1) k ltac:(lia) ltac:(lia) ltac:(lia))%Z. lra. }
    replace (j + 1 - 1)%Z with j in Hh by lia.
    f_equal. destruct (interp_ends i _ _ _ _ (HS j i J1 J2 J4)) as [_ E]. rewrite E.
    destruct i; try reflexivity. exfalso. apply Hh; [lia | exact J4].
Qed.

(** the integral against the trapezoid of limits: antisymmetry and additivity *)
Lemma tab_integrate_chasles NBT INT x y t : valid_breakpoints NBT (sizeZ x) -> (sizeZ x < 18446744073709551616)%Z ->
  make_tab NBT INT x y = Ok t -> integrable_segments NBT INT x y ->
  forall a b c, exists vab vbc vac vba,
    tab_integrate t a b = Ok vab /\ tab_integrate t b c = Ok vbc /\ tab_integrate t a c = Ok vac /\
    tab_integrate t b a = Ok vba /\ vac = vab + vbc /\ vba = - vab.
Proof.
  intros Hv Big H HS a b c.
  destruct (tab_integrate_RInt _ _ _ _ _ Hv Big H HS a b) as (vab & E1 & I1).
  destruct (tab_integrate_RInt _ _ _ _ _ Hv Big H HS b c) as (vbc & E2 & I2).
  destruct (tab_integrate_RInt _ _ _ _ _ Hv Big H HS a c) as (vac & E3 & I3).
  destruct (tab_integrate_RInt _ _ _ _ _ Hv Big H HS b a) as (vba & E4 & I4).
  exists vab, vbc, vac, vba. repeat (split; [assumption|]). split.
  - pose proof (is_RInt_Chasles _ _ _ _ _ _ I1 I2) as I. 
    rewrite <- (is_RInt_unique _ _ _ _ I3). exact (is_RInt_unique _ _ _ _ I).
  - pose proof (is_RInt_swap _ _ _ _ I1) as I.
    rewrite <- (is_RInt_unique _ _ _ _ I4). exact (is_RInt_unique _ _ _ _ I).
Qed.
