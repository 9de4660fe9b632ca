(** * Tabulated1D over R: values *)
From Verif Require Import Base NumR M_Interp M_Tab1D S_Interp S_Tab1D L_Search L_SearchR L_Interp L_Tab1D.
From Coq Require Import ZifyBool ZifyNat.
Local Open Scope R_scope.

Lemma sl_get v lo hi k : (0 <= lo)%Z -> (hi <= sizeZ v)%Z -> (0 <= k < hi - lo)%Z ->
  getR (sl v lo hi) k = getR v (lo + k).
Proof.
  intros H1 H2 H3. pose proof (sl_at v lo hi k H1 H3) as E.
  rewrite atR in E by (rewrite sl_size; lia). rewrite atR in E by lia. congruence.
Qed.

Lemma sl_increasing v lo hi : (0 <= lo <= hi)%Z -> (hi <= sizeZ v)%Z -> increasing v -> increasing (sl v lo hi).
Proof.
  intros H1 H2 H i j Hi Hij Hj. rewrite sl_size in Hj by lia.
  rewrite !sl_get by lia. apply H; lia.
Qed.

Section RangeEval.
  Variables (x y : list R) (low hi : Z) (i : interpolation).
  Hypothesis Hx : increasing x.
  Hypothesis Hsz : sizeZ y = sizeZ x.
  Hypothesis Hlo : (0 <= low < hi)%Z.
  Hypothesis Hhi : (hi <= sizeZ x)%Z.
  Let r := mkRange i (sl x low hi) (sl y low hi).

  Lemma range_min_R : range_min r = Ok (getR x low).
  Proof.
    unfold range_min, frontR, r; cbn [r_x]. rewrite sl_at by lia.
    rewrite Z.add_0_r. apply atR; lia.
  Qed.
  Lemma range_max_R : range_max r = Ok (getR x (hi - 1)).
  Proof.
    unfold range_max, backR, r; cbn [r_x]. rewrite sl_size by lia. rewrite sl_at by lia.
    replace (low + (hi - low - 1))%Z with (hi - 1)%Z by lia. apply atR; lia.
  Qed.

  Lemma range_eval_low v : v <= getR x low -> range_eval r v = Ok (getR y low).
  Proof.
    intros H. unfold range_eval. rewrite range_min_R; cbn [bind]. rnum. rdec.
    unfold frontR, r; cbn [r_y]. rewrite sl_at by lia. rewrite Z.add_0_r. apply atR; lia.
  Qed.
  Lemma range_eval_high v : getR x low < v -> getR x (hi - 1) <= v -> range_eval r v = Ok (getR y (hi - 1)).
  Proof.
    intros H H'. unfold range_eval. rewrite range_min_R; cbn [bind]. rnum. rdec.
    rewrite range_max_R; cbn [bind]. rdec.
    unfold backR, r; cbn [r_y]. rewrite sl_size by lia. rewrite sl_at by lia.
    replace (low + (hi - low - 1))%Z with (hi - 1)%Z by lia. apply atR; lia.
  Qed.
  Lemma range_eval_mid v : getR x low < v -> v < getR x (hi - 1) ->
    exists j, (low <= j)%Z /\ (j + 1 < hi)%Z /\ getR x j < v <= getR x (j + 1) /\
      range_eval r v = Ok (interpolate i v (getR x j) (getR y j) (getR x (j + 1)) (getR y (j + 1))).
  Proof.
    intros H H'. unfold range_eval. rewrite range_min_R; cbn [bind].
    destruct (lower_boundR (sl x low hi) v (sl_increasing x low hi ltac:(lia) ltac:(lia) Hx)) as (k & E & K1 & K2 & K3).
    rewrite sl_size in K1 by lia.
    assert (1 <= k)%Z.
    { destruct (Z_le_dec k 0); [|lia]. specialize (K3 0%Z). rewrite sl_size in K3 by lia.
      rewrite sl_get in K3 by lia. rewrite Z.add_0_r in K3. specialize (K3 ltac:(lia)). lra. }
    assert (k < hi - low)%Z.
    { destruct (Z_lt_dec k (hi - low)); [lia|]. specialize (K2 (hi - low - 1)%Z ltac:(lia)).
      rewrite sl_get in K2 by lia. replace (low + (hi - low - 1))%Z with (hi - 1)%Z in K2 by lia. lra. }
    exists (low + (k - 1))%Z. split; [lia|]. split; [lia|].
    replace (low + (k - 1) + 1)%Z with (low + k)%Z by lia.
    split.
    { specialize (K2 (k - 1)%Z ltac:(lia)). rewrite sl_get in K2 by lia.
      specialize (K3 k). rewrite sl_size in K3 by lia. specialize (K3 ltac:(lia)).
      rewrite sl_get in K3 by lia. lra. }
    rewrite range_max_R; cbn [bind]. unfold r; cbn [r_x r_y r_interp]. rewrite E; cbn [bind].
    change (nleb v (getR x low)) with (Rleb v (getR x low)).
    change (nleb (getR x (hi - 1)) v) with (Rleb (getR x (hi - 1)) v). rdec.
    rewrite !sl_at by lia. rewrite !atR by lia. cbn [bind].
    replace (low + (k - 1 + 1))%Z with (low + k)%Z by lia. reflexivity.
  Qed.
End RangeEval.

Lemma segment_law_skip low2 hi bps i ints j :
  (hi <= j + 1)%Z -> low2 = low2 :> Z -> segment_law (hi :: bps) (i :: ints) j = segment_law bps ints j.
Proof. intros. cbn. replace (j + 1 <? hi)%Z with false by lia. reflexivity. Qed.

(** value inside the table *)
Definition inner_value (NBT : list Z) (INT : list interpolation) (x y : list R) (v w : R) : Prop :=
  (exists j, (0 <= j < sizeZ x)%Z /\ v = getR x j /\ w = getR y j) \/
  (exists j i, (0 <= j)%Z /\ (j + 1 < sizeZ x)%Z /\ getR x j < v <= getR x (j + 1) /\
     segment_law NBT INT j = Some i /\
     w = interpolate i v (getR x j) (getR y j) (getR x (j + 1)) (getR y (j + 1))).

Lemma regions_value x y low bps ints rs prev v : increasing x -> sizeZ y = sizeZ x ->
  chain x y low bps ints rs -> increasing_to prev bps (sizeZ x) -> (prev - 1 <= low <= prev)%Z -> bps <> [] ->
  getR x low < v -> v <= getR x (sizeZ x - 1) ->
  exists w, regions_eval rs v = Ok w /\
    ((exists j, (0 <= j < sizeZ x)%Z /\ v = getR x j /\ w = getR y j) \/
     (exists j i, (low <= j)%Z /\ (0 <= j)%Z /\ (j + 1 < sizeZ x)%Z /\ getR x j < v <= getR x (j + 1) /\
       segment_law bps ints j = Some i /\
       w = interpolate i v (getR x j) (getR y j) (getR x (j + 1)) (getR y (j + 1)))).
Proof.
  intros Hx Hsz C. revert prev. induction C as [|low hi bps i ints rs low2 H1 H2 H3 H4 H5 C IH];
    intros prev Hinc Hprev Hne Hlow Hmax; [easy|].
  cbn [increasing_to] in Hinc. destruct Hinc as [Hp Hinc].
  cbn [regions_eval]. rewrite range_max_R by lia. cbn [bind].
  change (nltb (getR x (hi - 1)) v) with (Rltb (getR x (hi - 1)) v).
  destruct (Rltb_spec (getR x (hi - 1)) v) as [L|L].
  - destruct bps as [|b bps].
    { cbn in Hinc. subst hi. lra. }
    assert (Hl2 : getR x low2 < v).
    { destruct H5 as [(-> & _)|(-> & a & b' & A & B & E)]; [exact L|].
      apply atR_inv in A as [A1 ->]. apply atR_inv in B as [B1 ->]. apply Reqb_true in E. lra. }
    destruct (IH hi Hinc) as (w & W1 & W2).
    + destruct H5 as [(-> & _)|(-> & _)]; lia.
    + discriminate.
    + exact Hl2.
    + exact Hmax.
    + exists w; split; [exact W1|]. destruct W2 as [W2|(j & i' & J0 & J1 & J2 & J3 & J4 & J5)]; [left; exact W2|].
      right; exists j, i'. split; [destruct H5 as [(-> & _)|(-> & _)]; lia|]. split; [exact J1|]. split; [exact J2|]. split; [exact J3|].
      split; [|exact J5]. cbn [segment_law].
      replace (j + 1 <? hi)%Z with false; [exact J4|]. destruct H5 as [(-> & _)|(-> & _)]; lia.
  - destruct (Req_dec v (getR x (hi - 1))) as [E|E].
    + rewrite range_eval_high by (try assumption; try lia; lra). eexists; split; [reflexivity|].
      left; exists (hi - 1)%Z. split; [lia|]. split; [exact E | reflexivity].
    + destruct (range_eval_mid x y low hi i Hx Hsz ltac:(lia) ltac:(lia) v Hlow ltac:(lra)) as (j & J1 & J2 & J3 & J4).
      rewrite J4. eexists; split; [reflexivity|]. right; exists j, i.
      split; [lia|]. split; [lia|]. split; [lia|]. split; [exact J3|]. split; [|reflexivity].
      cbn [segment_law]. replace (j + 1 <? hi)%Z with true by lia. reflexivity.
Qed.

Lemma make_tab_inv NBT INT (x y : list R) t : valid_breakpoints NBT (sizeZ x) ->
  (sizeZ x < 18446744073709551616)%Z -> make_tab NBT INT x y = Ok t ->
  exists rs, t = mkTab NBT INT x y rs /\ chain x y 0 NBT INT rs /\ sizeZ y = sizeZ x /\ increasing x /\ (0 < sizeZ x)%Z.
Proof.
  intros Hv Big H. destruct (make_tab_cases NBT INT x y Hv Big) as [E|(rs & E & C & L & S)]; [congruence|].
  exists rs. split; [congruence|]. split; [exact C|]. split; [unfold sizeZ; lia|].
  split; [apply is_sorted_increasing; exact S|].
  destruct Hv as [Hne Hinc]. destruct NBT as [|h q]; [easy|]. cbn in Hinc. destruct Hinc as [A B].
  apply increasing_to_le in B. lia.
Qed.

Lemma chain_first x y low hi bps i ints rs : chain x y low (hi :: bps) (i :: ints) rs ->
  exists rs', rs = mkRange i (sl x low hi) (sl y low hi) :: rs' /\ (0 <= low < hi)%Z /\ (hi <= sizeZ x)%Z.
Proof. intros C; inversion C; subst. eexists; split; [reflexivity | lia]. Qed.

(** the last region covers [lowl, size) and starts before the last point or at it *)
Lemma chain_last x y low bps ints rs prev : chain x y low bps ints rs -> increasing_to prev bps (sizeZ x) -> bps <> [] ->
  exists lowl i, (0 <= lowl < sizeZ x)%Z /\ backR rs = Ok (mkRange i (sl x lowl (sizeZ x)) (sl y lowl (sizeZ x))).
Proof.
  intros C. revert prev. induction C as [|low hi bps i ints rs low2 H1 H2 H3 H4 H5 C IH];
    intros prev Hinc Hne; [easy|].
  cbn [increasing_to] in Hinc. destruct Hinc as [Hp Hinc].
  destruct bps as [|b bps].
  - cbn in Hinc. subst hi. inversion C; subst. exists low, i. split; [lia | reflexivity].
  - destruct (IH hi Hinc ltac:(discriminate)) as (lowl & i' & L1 & L2).
    exists lowl, i'. split; [exact L1|]. unfold backR in *. rewrite sizeZ_cons.
    inversion C; subst. rewrite sizeZ_cons in *.
    replace (sizeZ rs0 + 1 + 1 - 1)%Z with (sizeZ rs0 + 1)%Z by lia.
    rewrite atZ_cons_S by (pose proof (sizeZ_nonneg rs0); lia).
    replace (sizeZ rs0 + 1 - 1)%Z with (sizeZ rs0)%Z in L2 by lia. exact L2.
Qed.

Lemma tab_value NBT INT x y t : valid_breakpoints NBT (sizeZ x) -> (sizeZ x < 18446744073709551616)%Z ->
  make_tab NBT INT x y = Ok t ->
  (forall v, v <= getR x 0 -> tab_eval t v = Ok (getR y 0)) /\
  (forall v, getR x (sizeZ x - 1) < v -> tab_eval t v = Ok (getR y (sizeZ x - 1))) /\
  (forall v, getR x 0 < v < getR x (sizeZ x - 1) ->
     exists w, tab_eval t v = Ok w /\ inner_value NBT INT x y v w).
Proof.
  intros Hv Big H. destruct (make_tab_inv _ _ _ _ _ Hv Big H) as (rs & -> & C & Hsz & Hx & Hpos).
  destruct Hv as [Hne Hinc].
  unfold tab_eval; cbn [t_x t_regions]. rewrite frontR_R, backR_R by lia.
  split; [|split].
  - intros v Hv. cbn [bind]. change (nleb v (getR x 0)) with (Rleb v (getR x 0)). rdec.
    destruct NBT as [|h q]; [easy|]. destruct INT as [|i is]; [inversion C|].
    destruct (chain_first _ _ _ _ _ _ _ _ C) as (rs' & -> & B1 & B2).
    cbn [frontR atZ Z.to_nat nth_error Z.leb Z.compare bind].
    apply range_eval_low; try assumption; lia.
  - intros v Hv. cbn [bind]. assert (getR x 0 <= getR x (sizeZ x - 1)) by (apply Hx; lia).
    change (nleb v (getR x 0)) with (Rleb v (getR x 0)).
    change (nleb (getR x (sizeZ x - 1)) v) with (Rleb (getR x (sizeZ x - 1)) v). rdec.
    destruct (chain_last _ _ _ _ _ _ _ C Hinc Hne) as (lowl & i & L1 & ->). cbn [bind].
    apply range_eval_high; try assumption; try lia; [|lra].
    assert (getR x lowl <= getR x (sizeZ x - 1)) by (apply Hx; lia). lra.
  - intros v [Hv1 Hv2]. cbn [bind].
    change (nleb v (getR x 0)) with (Rleb v (getR x 0)).
    change (nleb (getR x (sizeZ x - 1)) v) with (Rleb (getR x (sizeZ x - 1)) v). rdec.
    destruct (regions_value x y 0 NBT INT rs 0 v Hx Hsz C Hinc ltac:(lia) Hne Hv1 ltac:(lra)) as (w & W1 & W2).
    exists w; split; [exact W1|]. destruct W2 as [W2|(j & i & _ & J1 & J2 & J3 & J4 & J5)]; [left; exact W2|].
    right; exists j, i; auto.
Qed.
