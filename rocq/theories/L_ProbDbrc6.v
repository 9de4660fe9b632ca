(** * A linearly interpolated cross section is continuous; the law of the resonance-corrected target velocity *)
From Coq Require Import Reals Lra Lia List Arith ZifyBool ZifyNat. From Coquelicot Require Import Coquelicot.
From Verif Require Import Base NumR M_Grid M_Kin S_Kin M_Doppler S_Doppler S_ProbSvt S_Grid L_Grid L_Xs L_Xs2 L_Xs3 L_Search L_SearchR L_Doppler S_Prob L_ProbLoop L_ProbSvt6 L_ProbDbrc3 L_ProbDbrc4 L_ProbDbrc5. Import ListNotations.
Local Open Scope R_scope.

Section Cont.
  Variables (x : xsec R) (s : R -> R).
  Hypotheses (X : xs_ok x) (SI : strictly_increasing (gridv x)) (Hj : x_index x = 0%Z) (Hs : forall E, xs_eval x E = Ok (s E)).
  Notation g k := (getR (gridv x) k).
  Notation n := (sizeZ (gridv x)).
  Definition lip (lo hi L : R) : Prop := forall E E', lo <= E -> E <= E' -> E' <= hi -> Rabs (s E' - s E) <= L * (E' - E).
  Lemma lip_join a b c L L' : lip a b L -> lip b c L' -> a <= b <= c -> 0 <= L -> 0 <= L' -> lip a c (Rmax L L').
  Proof.
    intros H1 H2 B P P' E E' He Hee Hh. pose proof (Rmax_l L L') as M1. pose proof (Rmax_r L L') as M2. destruct (Rle_dec E' b) as [Q|Q].
    - specialize (H1 E E' He Hee Q). nra.
    - destruct (Rle_dec b E) as [Q2|Q2].
      + specialize (H2 E E' Q2 Hee Hh). nra.
      + specialize (H1 E b He ltac:(lra) ltac:(lra)). specialize (H2 b E' ltac:(lra) ltac:(lra) Hh). replace (s E' - s E) with ((s E' - s b) + (s b - s E)) by ring. eapply Rle_trans; [apply Rabs_triang|]. nra.
  Qed.
  Lemma cell_lip k : (0 <= k)%Z -> (k + 1 < n)%Z -> exists L, 0 <= L /\ lip (g k) (g (k + 1)) L.
  Proof.
    intros Hk Hn. set (v1 := getR (x_vals x) k). set (v2 := getR (x_vals x) (k + 1)). assert (D : g k < g (k + 1)) by (apply SI; lia). exists (Rabs ((v2 - v1) / (g (k + 1) - g k))). split; [apply Rabs_pos|]. intros E E' He Hee Hh.
    assert (V : forall z, g k <= z <= g (k + 1) -> s z = linear (g k) v1 (g (k + 1)) v2 z). { intros z Hz. pose proof (xs_eval_cell x k z X SI ltac:(lia) Hn Hz) as Q. rewrite Hs, Hj, !Z.sub_0_r in Q. injection Q as Q. exact Q. }
    rewrite !V by lra. unfold linear. replace (v1 + (v2 - v1) * (E' - g k) / (g (k + 1) - g k) - (v1 + (v2 - v1) * (E - g k) / (g (k + 1) - g k))) with ((v2 - v1) / (g (k + 1) - g k) * (E' - E)) by (field; lra). rewrite Rabs_mult, (Rabs_pos_eq (E' - E)) by lra. lra.
  Qed.
  Lemma upto_lip : forall m, (Z.of_nat m < n)%Z -> exists L, 0 <= L /\ lip (g 0) (g (Z.of_nat m)) L.
  Proof.
    induction m as [|m IH]; intros Hm.
    - exists 0. split; [lra|]. intros E E0 A B C. cbn [Z.of_nat] in C. assert (E = E0) by lra. subst. rewrite Rminus_eq_0, Rabs_R0. lra.
    - destruct (IH ltac:(lia)) as (L & P & H). destruct (cell_lip (Z.of_nat m) ltac:(lia) ltac:(lia)) as (L' & P' & H'). exists (Rmax L L'). split; [apply Rle_trans with (1 := P), Rmax_l|].
      replace (Z.of_nat (S m)) with (Z.of_nat m + 1)%Z by lia. apply lip_join with (g (Z.of_nat m)); try assumption. pose proof (strictly_increasing_increasing _ SI) as I. split; [apply I; lia|apply I; lia].
  Qed.
  Lemma all_lip : exists L, 0 <= L /\ forall E E', g 0 <= E -> E <= E' -> Rabs (s E' - s E) <= L * (E' - E).
  Proof.
    pose proof X as [(Gs & _) _ _ _]. fold (gridv x) in Gs. destruct (upto_lip (Z.to_nat (n - 1)) ltac:(lia)) as (L & P & H). rewrite Z2Nat.id in H by lia. exists L. split; [exact P|]. intros E E' He Hee. pose proof (strictly_increasing_increasing _ SI 0%Z (n - 1)%Z ltac:(lia) ltac:(lia) ltac:(lia)) as I0.
    pose proof (lip_join (g 0) (g (n - 1)) (Rmax E' (g (n - 1))) L 0 H) as J. rewrite (Rmax_left L 0) in J by exact P. apply J; try lra; try exact Hee; [|split; [exact I0|apply Rmax_r]|apply Rmax_l].
    intros a b A B C. assert (V : forall z, g (n - 1) <= z -> s z = getR (x_vals x) (sizeZ (x_vals x) - 1)) by (intros z Hz; pose proof (xs_eval_above x z X Hz) as Q; rewrite Hs in Q; injection Q as Q; exact Q). rewrite !V by lra. rewrite Rminus_eq_0, Rabs_R0. lra.
  Qed.
  Lemma xs_continuous lo hi : g 0 <= lo -> continuous_between s lo hi.
  Proof.
    intros Hlo E HE eps He. destruct all_lip as (L & P & H). exists (eps / (L + 1)). split; [apply Rdiv_lt_0_compat; lra|]. intros E' HE' D. assert (Q : Rabs (s E' - s E) <= L * Rabs (E' - E)).
    { destruct (Rle_dec E E') as [O|O]; [rewrite (Rabs_pos_eq (E' - E)) by lra; apply H; lra|]. rewrite (Rabs_minus_sym (s E')), (Rabs_minus_sym E'), (Rabs_pos_eq (E - E')) by lra. apply H; lra. }
    apply Rlt_div_r in D; [|lra]. pose proof (Rabs_pos (E' - E)). nra.
  Qed.
End Cont.

Theorem dbrc_velocity_law vals NB sig x Ein kT awr s : energy_grid vals -> strictly_increasing vals -> bins_ok NB -> built vals NB sig 0 x ->
  0 < Ein -> 0 < kT -> 0 < awr -> getR vals 0 <= window_low Ein kT awr -> (forall E, xs_eval x E = Ok (s E)) -> (exists E, window_low Ein kT awr <= E <= window_high Ein kT awr /\ 0 < s E) ->
  exists N, 0 < N /\ total_weight (resonance_kernel s Ein kT awr) Ein kT awr N /\ law (@dbrc_sample R NumR x Ein kT awr) (fun _ => True) 1 /\
    forall V m A, 0 < V -> -1 <= m <= 1 -> 0 <= A <= 2 * PI ->
      exists J, reaction_weight (resonance_kernel s Ein kT awr) Ein kT awr V m J /\ law (@dbrc_sample R NumR x Ein kT awr) (velocity_region V m A) (J / N * (A / (2 * PI))).
Proof.
  intros G SI Nb B HE Hk Ha H1 Hs Ps. assert (I : (0 <= 0 < 2 ^ 32)%Z) by lia.
  destruct (built_ok _ _ _ _ _ G Nb I B) as (X & V & S & J & H & P & _). rewrite <- V in *. destruct Nb as [N1 N2]. fold (gridv x) in *. assert (NN : nonneg (x_vals x)) by (rewrite S; exact P).
  destruct (dbrc_sample_all x NB Ein kT awr s HE Hk Ha X NN SI J N1 N2 H H1 Hs) as (Mx & [_ MM] & EQ). pose proof (window_order Ein kT awr ltac:(lra) Hk Ha) as WO. assert (HM : 0 < Mx) by (destruct Ps as (E0 & W0 & P0); specialize (MM E0 W0); lra).
  assert (Bs : forall E, window_low Ein kT awr <= E <= window_high Ein kT awr -> 0 <= s E <= Mx). { intros E HEE. split; [|apply MM; exact HEE]. destruct (xs_eval_spec x E X) as (v & Ev & Hv). rewrite Hs in Ev. injection Ev as ->. apply (xs_value_nonneg x E v X NN Hv). }
  assert (Al : loops (@dbrc_sample R NumR x Ein kT awr) (dT Ein kT awr s Mx)).
  { intros ds O. pose proof (dbrc_loops x NB Ein kT awr HE Hk Ha X SI J N1 N2 H H1 s Mx Hs ds O) as Q. rewrite EQ. destruct (dT Ein kT awr s Mx ds) as [[[v|] r]| | |]; try exact Q. rewrite EQ. exact Q. }
  apply (dbrc_law Ein kT awr HE Hk Ha s Mx HM Bs (xs_continuous x s X SI J Hs _ _ H1) Ps _ Al).
Qed.
