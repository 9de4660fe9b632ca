(** * Equiprobable energy bins and general evaporation *)
From Coquelicot Require Import Coquelicot.
From Verif Require Import Base NumR L_Search L_SearchR M_Interp M_PC M_Spectra L_Interp2 L_PCR L_Legendre L_Angle L_Spectra.
From Coq Require Import ZifyBool ZifyNat.
Local Open Scope R_scope.

Lemma pow64 : IZR (2 ^ 64) = 2 ^ 64.
Proof. rewrite (pow_IZR 2 64). reflexivity. Qed.
(** the index the code computes *)
Lemma bin_index (bounds : list R) xi : (0 < sizeZ bounds < 2 ^ 64)%Z -> 0 <= xi < 1 -> exists b, @floor_size R NumR (IZR (sizeZ bounds) * xi) = Ok b /\ IZR b <= IZR (sizeZ bounds) * xi < IZR b + 1 /\ (0 <= b < sizeZ bounds)%Z.
Proof.
  intros L H. assert (0 < IZR (sizeZ bounds)) by (apply IZR_lt; lia). assert (IZR (sizeZ bounds) < 2 ^ 64) by (rewrite <- pow64; apply IZR_lt; lia).
  destruct (floor_size_R (IZR (sizeZ bounds) * xi)) as (b & E & B & P); [nra|nra|]. exists b. split; [exact E|]. split; [exact B|]. split; [exact P|]. apply lt_IZR. nra.
Qed.
Lemma sample_bins_ok (bounds : list R) xi1 xi2 b : (0 < sizeZ bounds < 2 ^ 64)%Z -> 0 <= xi1 < 1 -> IZR b <= IZR (sizeZ bounds) * xi1 < IZR b + 1 -> (b < sizeZ bounds - 1)%Z ->
  @sample_bins R NumR xi1 xi2 bounds = Ok ((getR bounds (b + 1) - getR bounds b) * xi2 + getR bounds b).
Proof.
  intros L H B Hb. destruct (bin_index bounds xi1 L H) as (b' & E & B' & P). assert (b' = b). { assert (b' < b + 1)%Z by (apply lt_IZR; rewrite plus_IZR; lra). assert (b < b' + 1)%Z by (apply lt_IZR; rewrite plus_IZR; lra). lia. } subst b'.
  unfold sample_bins. change (@nofZ R NumR (sizeZ bounds)) with (IZR (sizeZ bounds)). change (@nmul R NumR) with Rmult at 1. rewrite E. cbn [bind]. rewrite !atR by lia. cbn [bind]. reflexivity.
Qed.
Lemma sample_bins_ub (bounds : list R) xi1 xi2 : (0 < sizeZ bounds < 2 ^ 64)%Z -> IZR (sizeZ bounds - 1) / IZR (sizeZ bounds) <= xi1 < 1 -> @sample_bins R NumR xi1 xi2 bounds = UB.
Proof.
  intros L H. assert (Hn : 0 < IZR (sizeZ bounds)) by (apply IZR_lt; lia). assert (Hm : 0 <= IZR (sizeZ bounds - 1)) by (apply IZR_le; lia).
  assert (H0 : 0 <= IZR (sizeZ bounds - 1) / IZR (sizeZ bounds)) by (apply Rmult_le_pos; [exact Hm|left; apply Rinv_0_lt_compat, Hn]).
  destruct (bin_index bounds xi1 L ltac:(lra)) as (b & E & B & P).
  assert (G : IZR (sizeZ bounds - 1) <= IZR (sizeZ bounds) * xi1). { replace (IZR (sizeZ bounds - 1)) with (IZR (sizeZ bounds) * (IZR (sizeZ bounds - 1) / IZR (sizeZ bounds))) by (field; lra). apply Rmult_le_compat_l; lra. }
  assert (b = sizeZ bounds - 1)%Z. { assert (sizeZ bounds - 1 < b + 1)%Z by (apply lt_IZR; rewrite (plus_IZR b); lra). lia. } subst b.
  unfold sample_bins. change (@nofZ R NumR (sizeZ bounds)) with (IZR (sizeZ bounds)). change (@nmul R NumR) with Rmult at 1. rewrite E. cbn [bind]. rewrite atZ_out by lia. reflexivity.
Qed.
Lemma sample_bins_in (bounds : list R) xi1 xi2 e : increasing bounds -> (0 < sizeZ bounds < 2 ^ 64)%Z -> 0 <= xi1 < 1 -> 0 <= xi2 < 1 -> @sample_bins R NumR xi1 xi2 bounds = Ok e ->
  exists b, (0 <= b < sizeZ bounds - 1)%Z /\ IZR b <= IZR (sizeZ bounds) * xi1 < IZR b + 1 /\ getR bounds b <= e <= getR bounds (b + 1).
Proof.
  intros I L H1 H2 H. destruct (bin_index bounds xi1 L H1) as (b & E & B & P).
  destruct (Z.eq_dec b (sizeZ bounds - 1)) as [->|Q].
  - rewrite sample_bins_ub in H; [discriminate|exact L|]. split; [|lra]. assert (Hn : 0 < IZR (sizeZ bounds)) by (apply IZR_lt; lia). apply (Rmult_le_reg_l (IZR (sizeZ bounds))); [exact Hn|].
    replace (IZR (sizeZ bounds) * (IZR (sizeZ bounds - 1) / IZR (sizeZ bounds))) with (IZR (sizeZ bounds - 1)) by (field; lra). lra.
  - rewrite (sample_bins_ok bounds xi1 xi2 b) in H by (try assumption; lia). apply Ok_eq in H. exists b. split; [lia|]. split; [exact B|]. assert (getR bounds b <= getR bounds (b + 1)) by (apply I; lia). subst e. nra.
Qed.

(** ** density over the bins *)
Lemma find_bin_lt (bounds : list R) mu : forall n i, (0 <= i)%Z -> (i + Z.of_nat n <= sizeZ bounds - 1)%Z -> (0 < sizeZ bounds - 1)%Z -> exists k, @find_bin R NumR n bounds mu i = Ok k /\ (0 <= k < sizeZ bounds - 1)%Z.
Proof.
  induction n as [|n IH]; intros i Hi Hn Hs; cbn [find_bin]; [exists 0%Z; split; [reflexivity|lia]|].
  rewrite atR by lia. cbn [bind]. destruct (IH (i + 1)%Z ltac:(lia) ltac:(lia) Hs) as (k & Ek & Hk).
  destruct (nleb (getR bounds i) mu); [|eauto]. rewrite atR by lia. cbn [bind]. destruct (nleb mu (getR bounds (i + 1))); [|eauto]. exists i. split; [reflexivity|lia].
Qed.
Lemma pdf_bins_outside (bounds : list R) x : (1 < sizeZ bounds)%Z -> x < getR bounds 0 \/ getR bounds (sizeZ bounds - 1) < x -> @pdf_bins R NumR x bounds = Ok 0.
Proof.
  intros L H. unfold pdf_bins. rewrite frontR_R, backR_R by lia. cbn [bind]. change (@nltb R NumR) with Rltb. change (@nofZ R NumR 0) with 0.
  destruct (Rltb_spec x (getR bounds 0)); [reflexivity|]. destruct (Rltb_spec (getR bounds (sizeZ bounds - 1)) x); [reflexivity|]. lra.
Qed.
Lemma pdf_bins_value (bounds : list R) k x : strictly_increasing bounds -> (0 <= k < sizeZ bounds - 1)%Z -> getR bounds k < x < getR bounds (k + 1) ->
  @pdf_bins R NumR x bounds = Ok (1 / IZR (sizeZ bounds - 1) / (getR bounds (k + 1) - getR bounds k)).
Proof.
  intros S Hk H. unfold pdf_bins. rewrite frontR_R, backR_R by lia. cbn [bind]. change (@nltb R NumR) with Rltb.
  assert (getR bounds 0 <= getR bounds k) by (apply strictly_increasing_increasing; try assumption; lia).
  assert (getR bounds (k + 1) <= getR bounds (sizeZ bounds - 1)) by (apply strictly_increasing_increasing; try assumption; lia).
  replace (Rltb x _) with false by (symmetry; apply Rltb_false; lra). replace (Rltb _ x) with false by (symmetry; apply Rltb_false; lra).
  rewrite (find_bin_spec bounds x k) by (try assumption; unfold sizeZ in *; lia). cbn [bind]. rewrite !atR by lia. cbn [bind]. reflexivity.
Qed.
Lemma pdf_bins_safe (bounds : list R) x : (1 < sizeZ bounds)%Z -> exists p, @pdf_bins R NumR x bounds = Ok p.
Proof.
  intros L. unfold pdf_bins. rewrite frontR_R, backR_R by lia. cbn [bind].
  destruct (nltb x _); [eauto|]. destruct (nltb _ x); [eauto|]. destruct (find_bin_lt bounds x (length bounds - 1) 0) as (k & Ek & Hk); try (unfold sizeZ in *; lia).
  rewrite Ek. cbn [bind]. rewrite !atR by lia. cbn [bind]. eauto.
Qed.
Lemma pdf_bins_nonneg (bounds : list R) x p : strictly_increasing bounds -> (1 < sizeZ bounds)%Z -> @pdf_bins R NumR x bounds = Ok p -> 0 <= p.
Proof.
  intros S L. unfold pdf_bins. rewrite frontR_R, backR_R by lia. cbn [bind].
  destruct (nltb x _); [intros H; apply Ok_eq in H; subst p; change (0 <= 0); lra|]. destruct (nltb _ x); [intros H; apply Ok_eq in H; subst p; change (0 <= 0); lra|]. destruct (find_bin_lt bounds x (length bounds - 1) 0) as (k & Ek & Hk); try (unfold sizeZ in *; lia).
  rewrite Ek. cbn [bind]. rewrite !atR by lia. cbn [bind]. intros H. apply Ok_eq in H. subst p. rnum. assert (getR bounds k < getR bounds (k + 1)) by (apply S; lia). assert (0 < IZR (sizeZ bounds - 1)) by (apply IZR_lt; lia).
  left. apply Rdiv_lt_0_compat; [apply Rdiv_lt_0_compat; lra|lra].
Qed.
Section Density.
  Variables (bounds : list R) (f : R -> R).
  Hypotheses (S : strictly_increasing bounds) (L : (1 < sizeZ bounds)%Z) (F : forall x, @pdf_bins R NumR x bounds = Ok (f x)).
  Let n := IZR (sizeZ bounds - 1).
  Lemma n_pos : 0 < n. Proof. unfold n. apply IZR_lt. clear - L. lia. Qed.
  Lemma bin_integral k : (0 <= k < sizeZ bounds - 1)%Z -> is_RInt f (getR bounds k) (getR bounds (k + 1)) (1 / n).
  Proof.
    intros Hk. assert (H : getR bounds k < getR bounds (k + 1)) by (apply S; lia). pose proof n_pos.
    apply is_RInt_ext with (fun _ => 1 / n / (getR bounds (k + 1) - getR bounds k)).
    - intros x Hx. rewrite Rmin_left, Rmax_right in Hx by lra. pose proof (pdf_bins_value bounds k x S Hk Hx) as E. rewrite F in E. apply Ok_eq in E. symmetry; exact E.
    - eapply iR_val; [|apply iR_const]. field. lra.
  Qed.
  Lemma bins_integral_upto m : (Z.of_nat m <= sizeZ bounds - 1)%Z -> is_RInt f (getR bounds 0) (getR bounds (Z.of_nat m)) (INR m / n).
  Proof.
    pose proof n_pos. induction m as [|m IH]; intros Hm.
    - change (Z.of_nat 0) with 0%Z. cbn [INR]. replace (0 / n) with 0 by (field; lra). exact (@is_RInt_point R_NormedModule f (getR bounds 0%Z)).
    - eapply Chasles_R; [apply IH; lia|replace (Z.of_nat (Datatypes.S m)) with (Z.of_nat m + 1)%Z by lia; apply bin_integral; lia|]. rewrite S_INR. field. lra.
  Qed.
  Lemma bins_total lo hi : lo <= getR bounds 0 -> getR bounds (sizeZ bounds - 1) <= hi -> is_RInt f lo hi 1.
  Proof.
    intros H1 H2. pose proof n_pos.
    assert (C : is_RInt f (getR bounds 0) (getR bounds (sizeZ bounds - 1)) 1).
    { replace (sizeZ bounds - 1)%Z with (Z.of_nat (Z.to_nat (sizeZ bounds - 1))) by lia. eapply iR_val; [|apply bins_integral_upto; lia]. rewrite INR_IZR_INZ. replace (Z.of_nat (Z.to_nat (sizeZ bounds - 1))) with (sizeZ bounds - 1)%Z by lia. fold n. field. lra. }
    assert (Z0 : forall a b, a <= b -> (forall x, a < x < b -> x < getR bounds 0 \/ getR bounds (sizeZ bounds - 1) < x) -> is_RInt f a b 0).
    { intros a b Hab Hz. apply is_RInt_ext with (fun _ => 0).
      - rewrite Rmin_left, Rmax_right by lra. intros x Hx. pose proof (pdf_bins_outside bounds x L (Hz x Hx)) as E. rewrite F in E. apply Ok_eq in E. symmetry; exact E.
      - eapply iR_val; [|apply iR_const]. ring. }
    eapply Chasles_R; [apply (Z0 lo (getR bounds 0)); [exact H1|intros; lra]| |symmetry; apply Rplus_0_l].
    eapply Chasles_R; [exact C|apply (Z0 (getR bounds (sizeZ bounds - 1)) hi); [exact H2|intros; lra]|symmetry; apply Rplus_0_r].
  Qed.
End Density.

(** ** EquiprobableEnergyBins *)
Lemma make_ebins_spec (energy : list R) (sets : list (list R)) d : @make_ebins R NumR energy sets = Ok d <-> increasing energy /\ length energy = length sets /\ (forall b, In b sets -> increasing b) /\ d = mkEB energy sets.
Proof.
  unfold make_ebins. destruct (is_sorted energy) eqn:E; cbn [guard bind].
  2: { split; [discriminate|]. intros (I & _). apply is_sorted_increasing in I. congruence. }
  apply is_sorted_increasing in E. destruct (Nat.eqb_spec (length energy) (length sets)) as [L|L]; cbn [guard bind]; [|split; [discriminate|tauto]].
  destruct (forallb is_sorted sets) eqn:S; cbn [guard bind].
  2: { split; [discriminate|]. intros (_ & _ & I & _). exfalso. assert (forallb (@is_sorted R NumR) sets = true) by (apply forallb_forall; intros b Hb; apply is_sorted_increasing, I, Hb). congruence. }
  rewrite forallb_forall in S. split; [intros H; apply Ok_eq in H; subst d; repeat split; try assumption; intros b Hb; apply is_sorted_increasing, S, Hb|intros (_ & _ & _ & ->); reflexivity].
Qed.
Lemma eb_sample_set (energy : list R) (sets : list (list R)) d E ds e ds' : @make_ebins R NumR energy sets = Ok d -> (forall b, In b sets -> (0 < sizeZ b < 2 ^ 64)%Z) -> draws01 ds -> eb_sample d E ds = Ok (e, ds') ->
  exists b k, In b sets /\ (0 <= k < sizeZ b - 1)%Z /\ getR b k <= e <= getR b (k + 1).
Proof.
  intros Mk Sz D H. apply make_ebins_spec in Mk as (I & L & J & ->). unfold eb_sample in H. cbn [eb_energy eb_sets] in H.
  assert (Go : forall b q, In b sets -> draws01 q -> (rlet! xi1 := draw in rlet! xi2 := draw in rlift (@sample_bins R NumR xi1 xi2 b)) q = Ok (e, ds') -> exists b k, In b sets /\ (0 <= k < sizeZ b - 1)%Z /\ getR b k <= e <= getR b (k + 1)).
  { intros b q Hb Dq G. apply rbind_ok in G as (x1 & q1 & H1 & G). apply rbind_ok in G as (x2 & q2 & H2 & G). apply rlift_ok in G as [G _]. apply draw_ok in H1, H2. subst q q1.
    apply sample_bins_in in G as (k & K1 & _ & K2); [exists b, k; tauto|apply J, Hb|apply Sz, Hb|apply Dq; left; reflexivity|apply Dq; right; left; reflexivity]. }
  apply rbind_ok in H as (k & q0 & H1 & H). apply rlift_ok in H1 as [_ <-].
  destruct (k =? 0)%Z; [|destruct (k =? sizeZ energy)%Z].
  - apply rbind_ok in H as (b & q1 & H1 & H). apply rlift_ok in H1 as [H1 <-]. apply (Go b ds); [exact (atZ_In _ _ _ H1)|exact D|exact H].
  - apply rbind_ok in H as (b & q1 & H1 & H). apply rlift_ok in H1 as [H1 <-]. apply (Go b ds); [exact (atZ_In _ _ _ H1)|exact D|exact H].
  - apply rbind_ok in H as (e1 & q1 & H1 & H). apply rlift_ok in H1 as [_ <-]. apply rbind_ok in H as (e2 & q1 & H1 & H). apply rlift_ok in H1 as [_ <-].
    apply rbind_ok in H as (xi & q1 & H1 & H). apply draw_ok in H1. subst ds. apply rbind_ok in H as (b & q2 & H1 & H). apply rlift_ok in H1 as [H1 <-]. apply (Go b q1); [exact (atZ_In _ _ _ H1)|exact (draws01_tl _ _ D)|exact H].
Qed.
Lemma eb_first (energy : list R) (sets : list (list R)) d E b xi1 xi2 ds : @make_ebins R NumR energy sets = Ok d -> (0 < sizeZ energy)%Z -> E <= getR energy 0 -> atZ sets 0 = Ok b ->
  eb_sample d E (xi1 :: xi2 :: ds) = (let! e := @sample_bins R NumR xi1 xi2 b in Ok (e, ds)).
Proof.
  intros Mk L HE Hb. apply make_ebins_spec in Mk as (I & Ls & J & ->). unfold eb_sample. cbn [eb_energy eb_sets]. unfold rbind at 1, rlift at 1.
  rewrite (lower_boundR_eq energy E 0 I). 2: { repeat split; try lia; intros i Hi; try lia. assert (getR energy 0 <= getR energy i) by (apply I; lia). lra. }
  cbn [bind]. change (0 =? 0)%Z with true. cbv iota. unfold rbind, rlift, draw. unfold frontR. rewrite Hb. cbn [bind]. reflexivity.
Qed.
(** interpolated density *)
Lemma eb_pdf_total (energy : list R) (sets : list (list R)) d E f lo hi : @make_ebins R NumR energy sets = Ok d -> (0 < sizeZ energy)%Z -> (forall b, In b sets -> strictly_increasing b /\ (1 < sizeZ b)%Z /\ lo <= getR b 0 /\ getR b (sizeZ b - 1) <= hi) ->
  (forall x, @eb_pdf R NumR d E x = Ok (f x)) -> is_RInt f lo hi 1.
Proof.
  intros Mk L0 B F. apply make_ebins_spec in Mk as (I & Ls & J & ->). unfold eb_pdf in F. cbn [eb_energy eb_sets] in F. destruct (lower_boundR energy E I) as (k & Ek & K). rewrite Ek in F. cbn [bind] in F.
  assert (One : forall b, In b sets -> (forall x, @pdf_bins R NumR x b = Ok (f x)) -> is_RInt f lo hi 1). { intros b Hb Fb. destruct (B b Hb) as (S & L & H1 & H2). exact (bins_total b f S L Fb lo hi H1 H2). }
  destruct (k =? 0)%Z eqn:K0; [|destruct (k =? sizeZ energy)%Z eqn:K1].
  - destruct (frontR sets) as [b| | |] eqn:Eb; try (specialize (F 0); discriminate). apply (One b); [exact (atZ_In _ _ _ Eb)|exact F].
  - destruct (backR sets) as [b| | |] eqn:Eb; try (specialize (F 0); discriminate). apply (One b); [exact (atZ_In _ _ _ Eb)|exact F].
  - destruct (atZ energy (k - 1)) as [e1| | |]; try (specialize (F 0); discriminate). cbn [bind] in F. destruct (atZ energy (k - 1 + 1)) as [e2| | |]; try (specialize (F 0); discriminate). cbn [bind] in F.
    destruct (atZ sets (k - 1)) as [b1| | |] eqn:E1; try (specialize (F 0); discriminate). cbn [bind] in F. destruct (atZ sets (k - 1 + 1)) as [b2| | |] eqn:E2; [| | |].
    2-4: specialize (F 0); destruct (pdf_bins 0 b1); discriminate. cbn [bind] in F.
    apply atZ_In in E1, E2. destruct (B b1 E1) as (S1 & L1 & A1 & A2). destruct (B b2 E2) as (S2 & L2 & A3 & A4).
    pose (g1 := fun x => match @pdf_bins R NumR x b1 with Ok p => p | _ => 0 end). pose (g2 := fun x => match @pdf_bins R NumR x b2 with Ok p => p | _ => 0 end).
    assert (G1 : forall x, @pdf_bins R NumR x b1 = Ok (g1 x)) by (intros x; unfold g1; destruct (pdf_bins_safe b1 x L1) as (p & ->); reflexivity).
    assert (G2 : forall x, @pdf_bins R NumR x b2 = Ok (g2 x)) by (intros x; unfold g2; destruct (pdf_bins_safe b2 x L2) as (p & ->); reflexivity).
    set (w := ((E -~ e1) /~ (e2 -~ e1))%num) in *. change R in (type of w).
    apply is_RInt_ext with (fun x => (1 - w) * g1 x + w * g2 x).
    + intros x _. specialize (F x). rewrite G1, G2 in F. cbn [bind] in F. apply Ok_eq in F. exact F.
    + eapply iR_val; [|apply iR_plus; apply iR_scal; [exact (bins_total b1 g1 S1 L1 G1 lo hi A1 A2)|exact (bins_total b2 g2 S2 L2 G2 lo hi A3 A4)]]. ring.
Qed.

(** ** GeneralEvaporation *)
Lemma make_gevap_spec temp bounds d : @make_gevap R NumR temp bounds = Ok d <-> increasing bounds /\ d = mkGE temp bounds.
Proof.
  unfold make_gevap. destruct (is_sorted bounds) eqn:E; cbn [guard bind].
  - apply is_sorted_increasing in E. split; [intros H; apply Ok_eq in H; subst d; tauto|intros (_ & ->); reflexivity].
  - split; [discriminate|]. intros (I & _). apply is_sorted_increasing in I. congruence.
Qed.
Lemma ge_sample_eq temp bounds E t xi1 xi2 ds : temp E = Ok t -> @ge_sample R NumR (mkGE temp bounds) E (xi1 :: xi2 :: ds) = (let! x := sample_bins xi1 xi2 bounds in Ok (x * t, ds)).
Proof.
  intros Ht. unfold ge_sample, sample_bins, rbind, rlift, draw, rret. cbn [ge_temp ge_bounds]. rewrite Ht. cbn [bind]. destruct (floor_size _) as [b| | |]; try reflexivity. cbn [bind]. destruct (atZ bounds (b + 1)); try reflexivity. cbn [bind]. destruct (atZ bounds b); reflexivity.
Qed.
Lemma ge_pdf_eq temp bounds E t x : temp E = Ok t -> t <> 0 -> @ge_pdf R NumR (mkGE temp bounds) E x = (let! p := pdf_bins (x / t) bounds in Ok (p / t)).
Proof.
  intros Ht T0. unfold ge_pdf, pdf_bins. cbn [ge_temp ge_bounds]. rewrite Ht. cbn [bind]. change (@ndiv R NumR) with Rdiv. change (@nofZ R NumR 0) with 0.
  assert (Z0 : 0 = 0 / t) by (field; exact T0). destruct (frontR bounds); try reflexivity. cbn [bind]. destruct (nltb (x / t) _); [cbn [bind]; rewrite <- Z0; reflexivity|].
  destruct (backR bounds); try reflexivity. cbn [bind]. destruct (nltb _ (x / t)); [cbn [bind]; rewrite <- Z0; reflexivity|].
  destruct (find_bin _ _ _ _) as [b| | |]; try reflexivity. cbn [bind]. destruct (atZ bounds b); try reflexivity. cbn [bind]. destruct (atZ bounds (b + 1)); try reflexivity. cbn [bind]. f_equal.
  rnum. unfold Rdiv. rewrite Rinv_mult. ring.
Qed.
Lemma ge_total temp bounds E t f : temp E = Ok t -> 0 < t -> strictly_increasing bounds -> (1 < sizeZ bounds)%Z -> (forall x, @ge_pdf R NumR (mkGE temp bounds) E x = Ok (f x)) ->
  is_RInt f (t * getR bounds 0) (t * getR bounds (sizeZ bounds - 1)) 1.
Proof.
  intros Ht T0 S L F. pose (g := fun x => match @pdf_bins R NumR x bounds with Ok p => p | _ => 0 end).
  assert (G : forall x, @pdf_bins R NumR x bounds = Ok (g x)) by (intros x; unfold g; destruct (pdf_bins_safe bounds x L) as (p & ->); reflexivity).
  pose proof (bins_total bounds g S L G (getR bounds 0) (getR bounds (sizeZ bounds - 1)) ltac:(lra) ltac:(lra)) as T.
  apply is_RInt_ext with (fun y => / t * g (/ t * y + 0)).
  - intros x _. specialize (F x). rewrite (ge_pdf_eq temp bounds E t x Ht ltac:(lra)), G in F. cbn [bind] in F. apply Ok_eq in F. rewrite <- F. replace (/ t * x + 0) with (x / t) by (field; lra). unfold Rdiv. apply Rmult_comm.
  - apply (is_RInt_comp_lin g (/ t) 0 (t * getR bounds 0) (t * getR bounds (sizeZ bounds - 1)) 1).
    replace (/ t * (t * getR bounds 0) + 0) with (getR bounds 0) by (field; lra). replace (/ t * (t * getR bounds (sizeZ bounds - 1)) + 0) with (getR bounds (sizeZ bounds - 1)) by (field; lra). exact T.
Qed.
