(** * Property C82: an AngleTable built from a Legendre expansion *)
From Coquelicot Require Import Coquelicot.
From Verif Require Import NumF Base NumR L_SearchR M_Interp M_Tab1D M_PC S_PC M_Legendre S_Legendre M_LegTable L_PC L_PCR L_Legendre L_Linearize2 L_LegTable L_LegTableF.
From Coq Require Import Reals List Lra Lia. Import ListNotations.
Local Open Scope R_scope.

(** ** C82: full claim: the table is a density on [-1,1] whose value at every cosine is that of the expansion, to 0.1 %.
    Proved: every table the constructor returns is a valid one (its CDF is the integral of its PDF, from 0 to 1), runs from -1 to 1,
    is proportional to the expansion [series 0 (1 :: moments)] at each of its points, and there each chord meets the tolerance at its midpoint
    (unless the two points are adjacent doubles or the expansion vanishes at the midpoint). *)
Theorem C82_table_partial : forall adj fuel moments d t, @make_leg R NumR moments = Ok d -> angle_table_of_legendre adj fuel d = Ok t ->
  exists norm, norm <> 0 /\
    valid_table (pc_values t) (pc_pdfs t) (pc_cdf t) LinLin /\ make_pc (pc_values t) (pc_pdfs t) (pc_cdf t) LinLin = Ok t /\
    getR (pc_values t) 0 = -1 /\ getR (pc_values t) (sizeZ (pc_values t) - 1) = 1 /\
    (forall k, (0 <= k < sizeZ (pc_values t))%Z -> getR (pc_pdfs t) k = series 0 (1 :: moments) (getR (pc_values t) k) / norm) /\
    (forall k, (0 <= k)%Z -> (k + 1 < sizeZ (pc_values t))%Z ->
       let a := getR (pc_values t) k in let b := getR (pc_values t) (k + 1) in
       let L := series 0 (1 :: moments) in
       adj a b = true \/ L ((a + b) / 2) = 0 \/ Rabs ((L a + L b) / 2 - L ((a + b) / 2)) <= 1 / 1000 * Rabs (L ((a + b) / 2))).
Proof.
  intros adj fuel moments d t E H. pose proof (make_leg_pdf _ _ E) as F. destruct (table_spec adj fuel d t H) as (norm & A1 & A2 & A3 & A4 & A5 & A6 & A7).
  exists norm. split; [exact A1|]. split; [exact A2|]. split; [exact A3|]. split; [exact A4|]. split; [exact A5|]. split.
  - intros k Hk. rewrite (A6 k Hk), F. reflexivity.
  - intros k Hk Hk1. cbv zeta. specialize (A7 k Hk Hk1). unfold midpoint_within in A7. rewrite !F in A7. exact A7.
Qed.
Print Assumptions C82_table_partial.
(** sampling it is the exact inverse CDF of its own pdf, which is a density on [-1,1]; no sample leaves [-1,1] *)
Theorem C82_sample_partial : forall adj fuel d t xi, @angle_table_of_legendre R NumR adj fuel d = Ok t -> 0 <= xi < 1 ->
  exists mu (f : R -> R), pc_sample t xi = Ok mu /\ -1 <= mu <= 1 /\ (forall y, pc_pdf t y = Ok (f y)) /\ (forall y, 0 <= f y) /\
    (forall y, y < -1 \/ 1 < y -> f y = 0) /\ is_RInt f (-1) mu xi /\ is_RInt f (-1) 1 1.
Proof.
  intros adj fuel d t xi H X. destruct (table_spec adj fuel d t H) as (norm & A1 & V & A3 & A4 & A5 & _).
  rewrite (valid_accepted _ _ _ _ V) in A3. injection A3 as E. set (v := pc_values t) in *. set (p := pc_pdfs t) in *. set (c := pc_cdf t) in *. clearbody v p c.
  destruct (sample_spec v p c LinLin V xi X) as (x & k & S & I & K1 & K2 & K3 & K4). unfold tbl in E.
  exists x, (dens v p c LinLin). rewrite <- E. split; [exact S|].
  assert (Hc : sizeZ c = sizeZ v) by (destruct V; unfold sizeZ; congruence).
  assert (Hi : L_SearchR.increasing v) by (destruct V; assumption).
  pose proof (Hi 0%Z k ltac:(lia) ltac:(lia) ltac:(lia)) as B1. pose proof (Hi (k + 1)%Z (sizeZ v - 1)%Z ltac:(lia) ltac:(lia) ltac:(lia)) as B2.
  split; [lra|]. split; [exact (dens_ok _ _ _ _ V)|]. split; [exact (dens_nonneg _ _ _ _ V)|].
  split; [intros y Hy; apply (dens_outside _ _ _ _ V); lra|]. split; [rewrite <- A4; exact I|].
  pose proof (integral_from_0 _ _ _ _ V (sizeZ v - 1)%Z ltac:(lia)) as J. pose proof (vt_last _ _ _ _ V) as L. rewrite Hc in L. rewrite L in J. rewrite A4, A5 in J. exact J.
Qed.
Print Assumptions C82_sample_partial.
(** an expansion that is nowhere negative and positive at mu = -1 is always tabulated, once linearize returns *)
Theorem C82_total_partial : forall adj fuel moments d tab, @make_leg R NumR moments = Ok d ->
  linearize_interval adj fuel (-1) 1 (leg_pdf (lg_a d)) (1 / 1000) = Ok tab ->
  (forall mu, -1 <= mu <= 1 -> 0 <= series 0 (1 :: moments) mu) -> 0 < series 0 (1 :: moments) (-1) ->
  exists t, angle_table_of_legendre adj fuel d = Ok t.
Proof.
  intros adj fuel moments d tab E L P1 P2. pose proof (make_leg_pdf _ _ E) as F. apply (table_total adj fuel d tab L).
  - intros mu Hm. rewrite F. exact (P1 mu Hm).
  - rewrite F. exact P2.
Qed.
Print Assumptions C82_total_partial.
(** 1/2 + 7/32 P_3(mu): the only midpoint tested is mu = 0, where P_3 vanishes, so the table is the straight line through the
    end points: at mu = 1/2 it gives 0.609375 where the expansion is 0.404296875 (binary64, any libm) *)
Theorem C82_odd_expansion_refuted : forall lm adj fuel, adj (-1)%float 1%float = false -> exists d t,
  @make_leg float (NumF lm) [0; 0; 0.0625]%float = Ok d /\ @angle_table_of_legendre float (NumF lm) adj (2 + fuel) d = Ok t /\
  pc_values t = [-1; 1]%float /\ @pc_pdf float (NumF lm) t 0.5%float = Ok 0.609375%float /\ @leg_pdf float (NumF lm) (lg_a d) 0.5%float = 0.404296875%float.
Proof. exact odd_lost. Qed.
Print Assumptions C82_odd_expansion_refuted.
(** the hypotheses are met by 1/2 + 3/8 mu *)
Example C82_nonvacuous : exists d t, @make_leg R NumR [1/4] = Ok d /\ angle_table_of_legendre (fun _ _ => false) 2 d = Ok t.
Proof.
  destruct linear_example as (d & tab & E & L & P1 & P2). destruct (table_total _ _ d tab L P1 P2) as [t H]. exists d, t. split; [exact E|exact H].
Qed.
