(** * Properties C32, C33, C34, C44: energy grids and cross sections *)
From Verif Require Import NumF Base NumR L_SearchR M_Grid S_Grid L_Grid L_Xs L_Xs2 L_Xs3 L_GridF.
From Coq Require Import Reals List. Import ListNotations.
Local Open Scope R_scope.

(** ** C32: the hashed lookup returns the bracketing index, whatever the number of bins *)
Theorem C32_lookup_brackets_partial : forall vals NB, energy_grid vals -> bins_ok NB ->
  exists g, make_grid vals NB = Ok g /\ make_grid_ace vals NB = Ok g /\
    forall E, exists i, get_lower_index g E = Ok i /\ lower_index vals E i.
Proof.
  intros vals NB G [N1 N2]. destruct (make_grid_ok vals NB G N1) as (g & E1 & E2 & H). exists g. split; [exact E1|split; [exact E2|]].
  exact (get_lower_index_spec vals NB g G N1 N2 H).
Qed.
Print Assumptions C32_lookup_brackets_partial.
(** there is only one such index *)
Theorem C32_index_unique : forall vals E i j, energy_grid vals -> lower_index vals E i -> lower_index vals E j -> i = j.
Proof. intros vals E i j (G1 & G2 & _). apply brackets_unique; [lia|exact G2]. Qed.
Print Assumptions C32_index_unique.
Theorem C32_bad_grids_throw : forall vals NB, (1 <= sizeZ vals)%Z -> ~ L_SearchR.increasing vals \/ getR vals 0 < 0 -> make_grid vals NB = Throw.
Proof. exact make_grid_rejects. Qed.
Print Assumptions C32_bad_grids_throw.
(** binary64: with the default 8192 bins on the grid [1;20], the last double below 20 is hashed to bin 8192 and bin
    pointer 8193 is read out of range *)
Theorem C32_top_bin_refuted : forall lm NB g, Z.of_nat NB = 8192%Z ->
  lm_log lm 1%float = 0%float -> lm_log lm 20%float = ln20 -> lm_log lm below20 = ln20 ->
  @make_grid float (NumF lm) [1%float; 20%float] NB = Ok g -> @get_lower_index float (NumF lm) g below20 = UB.
Proof. exact top_of_grid_oob. Qed.
Print Assumptions C32_top_bin_refuted.
Example C32_top_bin_nonvacuous : exists g, @make_grid float (NumF lm_grid) [1%float; 20%float] (Z.to_nat 8192) = Ok g.
Proof. exact top_of_grid_built. Qed.
(** binary64: the vector constructor accepts a grid starting at zero energy; a lookup inside it is undefined *)
Theorem C32_zero_grid_refuted : forall lm, lm_log lm 0%float = neg_infinity -> lm_log lm 0.5%float = ln_half -> lm_log lm 1%float = 0%float ->
  forall g, @make_grid float (NumF lm) [0%float; 1%float] 8 = Ok g -> @get_lower_index float (NumF lm) g 0.5%float = UB.
Proof. exact zero_grid_ub. Qed.
Print Assumptions C32_zero_grid_refuted.
Example C32_nonvacuous : energy_grid gex /\ bins_ok 4 /\ lower_index gex 3 1.
Proof. split; [exact gex_ok|]. split; [exact gex_bins|]. change (brackets gex 3 1). gexb. right; right. change (getR gex 1) with 2. change (getR gex (1+1)) with 4.
  split; [lra|]. split; [lia|lra]. Qed.

(** ** C33: threshold, clamping, interpolation, positivity *)
Theorem C33_zero_below_threshold : forall vals NB sig idx x E, energy_grid vals -> bins_ok NB -> (0 <= idx < 2 ^ 32)%Z -> built vals NB sig idx x ->
  E < getR vals idx -> xs_eval x E = Ok 0.
Proof.
  intros vals NB sig idx x E G N I B H. destruct (built_ok _ _ _ _ _ G N I B) as (X & V & _ & J & _).
  apply xs_eval_below; [exact X|]. unfold gridv. rewrite V, J. exact H.
Qed.
Print Assumptions C33_zero_below_threshold.
Theorem C33_last_value_above : forall vals NB sig idx x E, energy_grid vals -> bins_ok NB -> (0 <= idx < 2 ^ 32)%Z -> built vals NB sig idx x ->
  getR vals (sizeZ vals - 1) <= E -> xs_eval x E = Ok (getR sig (sizeZ sig - 1)).
Proof.
  intros vals NB sig idx x E G N I B H. destruct (built_ok _ _ _ _ _ G N I B) as (X & V & S & J & _).
  rewrite xs_eval_above; [rewrite S; reflexivity|exact X|]. unfold gridv. rewrite V. exact H.
Qed.
Print Assumptions C33_last_value_above.
Theorem C33_tabulated_at_grid_energies : forall vals NB sig idx x k, energy_grid vals -> strictly_increasing vals -> bins_ok NB -> (0 <= idx < 2 ^ 32)%Z -> built vals NB sig idx x ->
  (idx <= k < sizeZ vals)%Z -> xs_eval x (getR vals k) = Ok (getR sig (k - idx)).
Proof.
  intros vals NB sig idx x k G SI N I B H. destruct (built_ok _ _ _ _ _ G N I B) as (X & V & S & J & _).
  pose proof (xs_eval_grid_point x k X) as P. rewrite V, J, S in P. apply P; assumption.
Qed.
Print Assumptions C33_tabulated_at_grid_energies.
Theorem C33_linear_between : forall vals NB sig idx x k E, energy_grid vals -> strictly_increasing vals -> bins_ok NB -> (0 <= idx < 2 ^ 32)%Z -> built vals NB sig idx x ->
  (idx <= k)%Z -> (k + 1 < sizeZ vals)%Z -> getR vals k <= E <= getR vals (k + 1) ->
  xs_eval x E = Ok (line (getR vals k) (getR sig (k - idx)) (getR vals (k + 1)) (getR sig (k + 1 - idx)) E).
Proof.
  intros vals NB sig idx x k E G SI N I B. destruct (built_ok _ _ _ _ _ G N I B) as (X & V & S & J & _).
  pose proof (xs_eval_cell x k E X) as P. unfold gridv in P. rewrite V, J, S in P. apply P; assumption.
Qed.
Print Assumptions C33_linear_between.
(** defined everywhere and never negative, on any non-decreasing grid (repeated energies allowed) *)
Theorem C33_nonnegative : forall vals NB sig idx x E, energy_grid vals -> bins_ok NB -> (0 <= idx < 2 ^ 32)%Z -> built vals NB sig idx x ->
  exists v, xs_eval x E = Ok v /\ 0 <= v.
Proof.
  intros vals NB sig idx x E G N I B. destruct (built_ok _ _ _ _ _ G N I B) as (X & V & S & J & _ & P & _).
  destruct (xs_eval_spec x E X) as (v & Ev & Hv). exists v. split; [exact Ev|]. apply (xs_value_nonneg x E v X); [rewrite S; exact P|exact Hv].
Qed.
Print Assumptions C33_nonnegative.
Theorem C33_inconsistent_data_throw : forall vals NB sig idx g, energy_grid vals -> bins_ok NB -> (0 <= idx < 2 ^ 32)%Z -> make_grid vals NB = Ok g ->
  (~ ((idx < sizeZ vals)%Z /\ (forall v, In v sig -> 0 <= v) /\ sizeZ sig = (sizeZ vals - idx)%Z) <-> make_xs sig g idx = Throw).
Proof. exact xs_rejected. Qed.
Print Assumptions C33_inconsistent_data_throw.
Example C33_nonvacuous : energy_grid gex /\ strictly_increasing gex /\ bins_ok 4 /\ exists x, built gex 4 [5; 7] 1 x.
Proof.
  split; [exact gex_ok|]. split; [exact gex_strict|]. split; [exact gex_bins|]. apply built_exists; [exact gex_ok|exact gex_bins|cbn; lia|reflexivity|].
  intros v [<-|[<-|[]]]; lra.
Qed.

(** ** C34: all ways of evaluating agree *)
Theorem C34_evaluations_agree_partial : forall vals NB sig idx x E i, energy_grid vals -> strictly_increasing vals -> bins_ok NB -> (0 <= idx < 2 ^ 32)%Z -> built vals NB sig idx x ->
  getR vals 0 <= E -> (E = getR vals idx -> idx = 0%Z \/ idx = (sizeZ vals - 1)%Z) -> get_lower_index (x_grid x) E = Ok i ->
  xs_eval_i x E i = xs_eval x E /\ xs_eval_ilh x E i (getR vals i) (getR vals (i + 1)) = xs_eval x E.
Proof.
  intros vals NB sig idx x E i G SI N I B H1 H2 Hi. destruct (built_index _ _ _ _ _ E G N I B) as (i' & Ei & Li). rewrite Hi in Ei. injection Ei as <-.
  destruct (built_ok _ _ _ _ _ G N I B) as (X & V & S & J & _ & P & W & Q).
  assert (Hr : (0 <= i < sizeZ vals)%Z) by (destruct G as ((? & ?) & _); destruct Li as [[? ?]|[(? & ? & ?)|(? & ? & ?)]]; lia).
  pose proof (xs_eval_i_agrees x E i X) as A. rewrite V, J in A.
  assert (A' : xs_eval_i x E i = xs_eval x E).
  { apply A; try assumption. intros Eq. destruct (H2 Eq) as [?|Hl]; [left; assumption|right].
    destruct Li as [[L1 ->]|[(L1 & L2 & ->)|(L1 & L2 & L3)]]; [|lia|].
    - assert (getR vals 0 <= getR vals idx) by (apply (proj1 (proj2 G)); lia). destruct (Z.eq_dec idx 0); [lia|].
      assert (getR vals 0 < getR vals idx) by (apply SI; lia). lra.
    - rewrite Hl in Eq. lra. }
  split; [exact A'|]. rewrite <- A'. pose proof (xs_eval_ilh_agrees x E i X) as C. rewrite V in C. apply C. exact Hr.
Qed.
Print Assumptions C34_evaluations_agree_partial.
(** at its first energy a threshold cross section is 5 through operator()(E) and 0 through operator()(E,i) *)
Theorem C34_threshold_refuted : forall NB g, bins_ok NB -> make_grid gex NB = Ok g -> exists x, make_xs [5; 7] g 1 = Ok x /\
  xs_eval x 2 = Ok 5 /\ (let! i := get_lower_index g 2 in xs_eval_i x 2 i) = Ok 0.
Proof.
  intros NB g [N1 N2] Eg. destruct (make_grid_ok gex NB gex_ok N1) as (g' & Eg' & _ & H). rewrite Eg in Eg'. injection Eg' as <-.
  exact (threshold_disagree g NB N1 N2 H).
Qed.
Print Assumptions C34_threshold_refuted.
(** below the grid operator()(E) is zero and operator()(E,i) is negative *)
Theorem C34_below_grid_refuted : forall NB g, bins_ok NB -> make_grid gex NB = Ok g -> exists x, make_xs [1; 5; 7] g 0 = Ok x /\
  xs_eval x (1/2) = Ok 0 /\ (let! i := get_lower_index g (1/2) in xs_eval_i x (1/2) i) = Ok (-1).
Proof.
  intros NB g [N1 N2] Eg. destruct (make_grid_ok gex NB gex_ok N1) as (g' & Eg' & _ & H). rewrite Eg in Eg'. injection Eg' as <-.
  exact (below_negative g NB N1 N2 H).
Qed.
Print Assumptions C34_below_grid_refuted.
Example C34_nonvacuous : 1 <= 3 /\ (3 = getR gex 1 -> 1%Z = 0%Z \/ 1%Z = (sizeZ gex - 1)%Z) /\ exists g, make_grid gex 4 = Ok g.
Proof.
  split; [lra|]. split; [change (getR gex 1) with 2; lra|]. destruct (make_grid_ok gex 4 gex_ok) as (g & E & _); [lia|]. eauto.
Qed.

(** ** C44: the DBRC majorant *)
Theorem C44_majorant_bounds_partial : forall vals NB sig x Emin Emax, energy_grid vals -> strictly_increasing vals -> bins_ok NB -> built vals NB sig 0 x ->
  getR vals 0 <= Emin -> Emin <= Emax ->
  exists M, max_xs_value x Emin Emax = Ok M /\ forall E, Emin <= E <= Emax -> exists v, xs_eval x E = Ok v /\ v <= M.
Proof.
  intros vals NB sig x Emin Emax G SI N B H1 H2. assert (I : (0 <= 0 < 2 ^ 32)%Z) by lia.
  destruct (built_ok _ _ _ _ _ G N I B) as (X & V & S & J & H & P & _). rewrite <- V in *. destruct N as [N1 N2].
  apply (max_xs_bounds x NB Emin Emax); try assumption. rewrite S. exact P.
Qed.
Print Assumptions C44_majorant_bounds_partial.
Theorem C44_threshold_oob_refuted : forall NB g, bins_ok NB -> make_grid gex NB = Ok g ->
  exists x, make_xs [5; 7] g 1 = Ok x /\ max_xs_value x 1 4 = UB.
Proof.
  intros NB g [N1 N2] Eg. destruct (make_grid_ok gex NB gex_ok N1) as (g' & Eg' & _ & H). rewrite Eg in Eg'. injection Eg' as <-.
  exact (dbrc_oob g NB N1 N2 H).
Qed.
Print Assumptions C44_threshold_oob_refuted.
Theorem C44_below_grid_refuted : forall NB g, bins_ok NB -> make_grid gex NB = Ok g ->
  exists x M v, make_xs [9; 5; 7] g 0 = Ok x /\ max_xs_value x (1/2) (3/2) = Ok M /\ xs_eval x 1 = Ok v /\ (1/2 <= 1 <= 3/2) /\ M < v.
Proof.
  intros NB g [N1 N2] Eg. destruct (make_grid_ok gex NB gex_ok N1) as (g' & Eg' & _ & H). rewrite Eg in Eg'. injection Eg' as <-.
  exact (dbrc_misses_first g NB N1 N2 H).
Qed.
Print Assumptions C44_below_grid_refuted.
Example C44_nonvacuous : exists x, built gex 4 [9; 5; 7] 0 x.
Proof. apply built_exists; [exact gex_ok|exact gex_bins|cbn; lia|reflexivity|]. intros v [<-|[<-|[<-|[]]]]; lra. Qed.
