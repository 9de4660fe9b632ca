(** * The resonance rejection loop as a loop over the flattened trial *)
From Coq Require Import Reals Lra Lia List Arith ZifyBool ZifyNat. From Coquelicot Require Import Coquelicot.
From Verif Require Import Base NumR M_Grid M_Kin S_Kin M_Doppler S_Doppler S_ProbSvt S_Grid L_Grid L_Xs L_Xs2 L_Xs3 L_Search L_SearchR L_Doppler L_Legendre L_Interp2 L_Spectra L_Spectra2 S_Prob L_Prob L_ProbEv L_Prob2 L_Gauss L_ProbMw L_ProbLaw L_ProbLoop L_ProbSvt L_ProbSvt2 L_ProbSvt3 L_ProbSvt4 L_ProbSvt5 L_ProbSvt6 L_ProbSvt7 L_ProbDbrc L_ProbDbrc2 L_ProbDbrc3. Import ListNotations.
Local Open Scope R_scope.

Lemma same_ok {A} (a b : res A) : only_draws a -> only_draws b -> (forall p, a = Ok p <-> b = Ok p) -> a = b.
Proof.
  intros Oa Ob H. destruct a as [p| | |]; try contradiction; destruct b as [q| | |]; try contradiction; try reflexivity.
  - symmetry. apply H. reflexivity.
  - destruct (proj1 (H p) eq_refl).
    reflexivity.
  - destruct (proj2 (H q) eq_refl). reflexivity.
Qed.
Section Loop.
  Variables (x : xsec R) (NB : nat) (Ein kT awr : R).
  Hypotheses (HE : 0 < Ein) (Hk : 0 < kT) (Ha : 0 < awr).
  Hypotheses (X : xs_ok x) (SI : strictly_increasing (gridv x)) (Hj : x_index x = 0%Z)
    (HN : (1 <= NB)%nat) (HN2 : (Z.of_nat NB < 2 ^ 32 - 1)%Z) (HH : hashed (x_grid x) (gridv x) NB).
  Let lo := window_low Ein kT awr.
  Let hi := window_high Ein kT awr.
  Hypothesis (H0 : getR (gridv x) 0 <= lo).
  Variables (s : R -> R) (Mx : R).
  Hypothesis (Hs : forall E, xs_eval x E = Ok (s E)).
  Let y := reduced Ein kT awr.
  Notation loop fuel := (@dbrc_loop R NumR fuel x Ein kT awr lo hi Mx (mkVec 0 0 (sqrt Ein))).
  Notation sample := (@svt_sample R NumR Ein kT awr).
  Lemma svt_step ds : open01 ds -> sample ds = match svt_turn y ds with Ok (None, r) => sample r | Ok (Some v, z :: q) => Ok (build kT awr v z, q) | _ => NoDraw end.
  Proof.
    intros O. pose proof (svt_loops y ds O) as L. assert (T : forall l, only_draws (sample l)) by (intros l; destruct (svt_sample_total Ein kT awr l) as [(p & ->)| ->]; exact I).
    destruct (turn_res y ds) as [E|([v|] & r & E)]; rewrite E in *.
    - apply same_ok; [apply T|exact I|]. intros [w q]. split; [|discriminate]. intros H. apply (sample_pair Ein kT awr HE Hk Ha _ _ _ O) in H as (v & z & H & _). destruct (L _ _ H).
    - apply same_ok; [apply T|destruct r; exact I|]. intros [w q]. rewrite (sample_pair Ein kT awr HE Hk Ha _ _ _ O). fold y. rewrite L. split.
      + intros (v' & z & H & ->). injection H as <- ->. reflexivity.
      + intros H. destruct r as [|z q']; [discriminate|]. exists v, z. injection H as <- <-. split; reflexivity.
    - destruct (steady_shorter _ _ _ _ (svt_steady y) (svt_asks y) O E) as [_ Or]. apply same_ok; [apply T|apply T|]. intros [w q]. rewrite !(sample_pair Ein kT awr HE Hk Ha) by assumption. fold y. rewrite L. reflexivity.
  Qed.
  Lemma sample_shorter ds v r : open01 ds -> sample ds = Ok (v, r) -> (length r < length ds)%nat /\ open01 r.
  Proof.
    intros O H. apply svt_sample_run in H as (l & -> & H); [|lra|assumption|assumption|apply all_units; exact O]. apply open01_app in O as [_ O]. split; [|exact O]. destruct H as (l0 & xi & x2 & mu & -> & _). rewrite !app_length. cbn. lia.
  Qed.
  Lemma step f ds : loop (S f) ds = let! (v, ds1) := sample ds in
     if orb (Rltb (relative_energy Ein v) lo) (Rltb hi (relative_energy Ein v)) then loop f ds1 else
     match ds1 with [] => NoDraw | r :: ds2 => if Rltb (r * Mx) (s (relative_energy Ein v)) then Ok (v, ds2) else loop f ds2 end.
  Proof. apply dbrc_step with (NB := NB); first [assumption|lra]. Qed.
  Lemma dfuel : forall n ds f f', (length ds <= n)%nat -> open01 ds -> (length ds < f)%nat -> (length ds < f')%nat -> loop f ds = loop f' ds.
  Proof.
    induction n as [|n IH]; intros ds f f' L O F F'; (destruct f as [|f]; [lia|]); (destruct f' as [|f']; [lia|]); rewrite !step;
      destruct (svt_sample_total Ein kT awr ds) as [([v ds1] & E)|E]; rewrite ?E; try reflexivity; cbn [bind]; destruct (sample_shorter _ _ _ O E) as [L1 O1].
    - lia.
    - destruct (orb _ _); [apply IH; try assumption; lia|]. destruct ds1 as [|r ds2]; [reflexivity|]. cbn [length] in *. inversion O1; subst. destruct (Rltb _ _); [reflexivity|]. apply IH; try assumption; lia.
  Qed.
  Definition dbrc_all : rand R (vec R) := fun ds => loop (S (length ds)) ds.
  Lemma all_step ds : open01 ds -> dbrc_all ds = let! (v, ds1) := sample ds in
     if orb (Rltb (relative_energy Ein v) lo) (Rltb hi (relative_energy Ein v)) then dbrc_all ds1 else
     match ds1 with [] => NoDraw | r :: ds2 => if Rltb (r * Mx) (s (relative_energy Ein v)) then Ok (v, ds2) else dbrc_all ds2 end.
  Proof.
    intros O. unfold dbrc_all at 1. rewrite step. destruct (svt_sample_total Ein kT awr ds) as [([v ds1] & E)|E]; rewrite ?E; try reflexivity. cbn [bind]. destruct (sample_shorter _ _ _ O E) as [L1 O1]. unfold dbrc_all.
    destruct (orb _ _); [apply (dfuel (length ds1)); try assumption; lia|]. destruct ds1 as [|r ds2]; [reflexivity|]. cbn [length] in *. inversion O1; subst. destruct (Rltb _ _); [reflexivity|]. apply (dfuel (length ds2)); try assumption; lia.
  Qed.
  Hypothesis HMx : 0 < Mx.
  Hypothesis Bs : forall E, lo <= E <= hi -> 0 <= s E <= Mx.
  Lemma dbrc_loops : loops dbrc_all (dT Ein kT awr s Mx).
  Proof.
    intros ds O. rewrite (dT_turn Ein kT awr HE Hk Ha s Mx ds O). fold y. pose proof (all_step ds O) as A. rewrite (svt_step ds O) in A. destruct (turn_res y ds) as [E|([v|] & r & E)]; rewrite E in *.
    - cbn [bind] in A. rewrite A. discriminate.
    - destruct v as [w mu]. destruct r as [|z q]; [cbn [bind] in A; rewrite A; discriminate|]. cbn [bind] in A. unfold after. fold lo hi. change (mkv kT awr w mu z) with (build kT awr (w, mu) z). destruct (orb _ _); [exact A|]. destruct q as [|u q]; [rewrite A; discriminate|].
      destruct (Rlt_dec (u * Mx) (s (relative_energy Ein (build kT awr (w, mu) z)))) as [Q|Q]; [rewrite (proj2 (Rltb_true _ _) Q) in A; exact A|]. assert (Q2 : Rltb (u * Mx) (s (relative_energy Ein (build kT awr (w, mu) z))) = false) by (apply Rltb_false, Rnot_lt_le; exact Q). rewrite Q2 in A. exact A.
    - destruct (steady_shorter _ _ _ _ (svt_steady y) (svt_asks y) O E) as [_ Or]. rewrite A. symmetry. apply all_step. exact Or.
  Qed.
End Loop.
Lemma dbrc_sample_all x NB Ein kT awr s : 0 < Ein -> 0 < kT -> 0 < awr ->
  xs_ok x -> nonneg (x_vals x) -> strictly_increasing (gridv x) -> x_index x = 0%Z ->
  (1 <= NB)%nat -> (Z.of_nat NB < 2 ^ 32 - 1)%Z -> hashed (x_grid x) (gridv x) NB ->
  getR (gridv x) 0 <= window_low Ein kT awr -> (forall E, xs_eval x E = Ok (s E)) ->
  exists M, maximum_on s (window_low Ein kT awr) (window_high Ein kT awr) M /\ forall ds, @dbrc_sample R NumR x Ein kT awr ds = dbrc_all x Ein kT awr M ds.
Proof.
  intros HE Hk Ha X NN SI Hj HN HN2 HH H0 Hs. destruct (window_order Ein kT awr ltac:(lra) Hk Ha) as [W1 W2].
  assert (W3 : window_low Ein kT awr <= window_high Ein kT awr) by lra.
  destruct (max_xs_bounds x NB (window_low Ein kT awr) (window_high Ein kT awr) X NN SI Hj HN HN2 HH H0 W3) as (M & EM & BM).
  exists M. split.
  { split.
    - destruct (max_xs_attained x NB _ _ M X NN SI Hj HN HN2 HH H0 W3 EM) as (E & HE1 & HE2). exists E. split; [exact HE1|].
      rewrite Hs in HE2. injection HE2. auto.
    - intros E HE1. destruct (BM E HE1) as (v & Ev & Lv). rewrite Hs in Ev. injection Ev as <-. exact Lv. }
  intros ds. unfold dbrc_sample. cbv zeta. change (@nsqrt R NumR (ndiv (nmul awr Ein) kT)) with (reduced Ein kT awr).
    assert (Y : @nmax R NumR (nofZ 0) (nsub (reduced Ein kT awr) (nofZ 4)) = Rmax 0 (reduced Ein kT awr - 4)).
    { unfold nmax. change (@nltb R NumR) with Rltb. change (@nsub R NumR (reduced Ein kT awr) (nofZ 4)) with (reduced Ein kT awr - 4).
      change (@nofZ R NumR 0) with 0. destruct (Rltb_spec 0 (reduced Ein kT awr - 4)); unfold Rmax; destruct (Rle_dec _ _); lra. }
    rewrite Y. unfold rbind at 1, rlift at 1. change (ndiv (nmul (nmul (Rmax 0 (reduced Ein kT awr - 4)) (Rmax 0 (reduced Ein kT awr - 4))) kT) awr) with (window_low Ein kT awr).
    change (ndiv (nmul (nmul (nadd (reduced Ein kT awr) (nofZ 4)) (nadd (reduced Ein kT awr) (nofZ 4))) kT) awr) with (window_high Ein kT awr).
    rewrite EM. reflexivity.
Qed.
