(** * Angular laws: cosines in range, bins, incident energy selection *)
From Coquelicot Require Import Coquelicot.
From Verif Require Import Base NumR L_Search L_SearchR M_Interp M_PC M_Legendre L_PC L_Legendre L_PCR L_Xs.
From Coq Require Import ZifyBool ZifyNat.
Local Open Scope R_scope.

Definition draws01 (ds : list R) : Prop := forall x, In x ds -> 0 <= x < 1.
(** every cosine the law returns lies in [-1,1] *)
Definition cosine_law (l : alaw R) : Prop := forall ds mu ds', draws01 ds -> al_sample l ds = Ok (mu, ds') -> -1 <= mu <= 1.

Lemma clamp_mu_bounds x : -1 <= @clamp_mu R NumR x <= 1.
Proof.
  unfold clamp_mu. rnum. destruct (Rltb_spec 1 (Rabs x)) as [H|H]; [destruct (Rltb_spec x 0); lra|]. apply Rabs_le_between in H. lra.
Qed.
Lemma clamp_mu_id x : -1 <= x <= 1 -> @clamp_mu R NumR x = x.
Proof. intros H. unfold clamp_mu. rnum. destruct (Rltb_spec 1 (Rabs x)) as [C|C]; [|reflexivity]. apply Rabs_le_between in H. lra. Qed.
Lemma draws01_tl x ds : draws01 (x :: ds) -> draws01 ds.
Proof. intros H y Hy. apply H. right; exact Hy. Qed.

Lemma isotropic_cosine : cosine_law isotropic.
Proof.
  intros ds mu ds' _ H. cbn in H. apply rbind_ok in H as (xi & ds1 & _ & H). apply rret_ok in H as [<- _]. apply clamp_mu_bounds.
Qed.
Lemma isotropic_value xi ds : 0 <= xi < 1 -> al_sample (@isotropic R NumR) (xi :: ds) = Ok (2 * xi - 1, ds).
Proof.
  intros H. cbn. unfold rbind, draw, rret. change (@nofZ R NumR) with IZR. change (@nmul R NumR) with Rmult. change (@nsub R NumR) with Rminus.
  rewrite clamp_mu_id by lra. reflexivity.
Qed.
Lemma angle_table_cosine t : cosine_law (angle_table t).
Proof.
  intros ds mu ds' _ H. cbn in H. apply rbind_ok in H as (xi & ds1 & _ & H). apply rbind_ok in H as (m & ds2 & _ & H). apply rret_ok in H as [<- _]. apply clamp_mu_bounds.
Qed.
Lemma legendre_cosine d : cosine_law (mkLaw (leg_sample d) (fun mu => Ok (leg_pdf (lg_a d) mu))).
Proof. intros ds mu ds' D H. cbn in H. pose proof (leg_sample_range d ds mu ds' D H). lra. Qed.

(** ** equiprobable bins *)
Lemma floor_size_R x : 0 <= x -> x < 2 ^ 64 -> exists z, @floor_size R NumR x = Ok z /\ IZR z <= x < IZR z + 1 /\ (0 <= z)%Z.
Proof.
  intros H1 H2. unfold floor_size. change (@nfloor R NumR x) with (Some (Int_part x)). pose proof (Int_part_spec x) as S.
  assert (0 <= Int_part x)%Z by (apply Z.lt_succ_r, lt_IZR; rewrite succ_IZR; lra).
  assert (Int_part x < 2 ^ 64)%Z. { apply lt_IZR. rewrite (pow_IZR 2 64) in H2. change (Z.of_nat 64) with 64%Z in H2. lra. }
  exists (Int_part x). cbv iota. replace (0 <=? Int_part x)%Z with true by lia. replace (Int_part x <? 2 ^ 64)%Z with true by lia. exact (conj eq_refl (conj S H)).
Qed.
Lemma bins_sample_form bounds xi : length bounds = 33%nat -> 0 <= xi < 1 -> exists b, (0 <= b <= 32)%Z /\ IZR b <= 33 * xi < IZR b + 1 /\
  bins_sample bounds xi = Ok (clamp_mu (32 * (xi - IZR b / 32) + getR bounds b)).
Proof.
  intros L H. unfold bins_sample. change (@nofZ R NumR) with IZR. change (@nmul R NumR) with Rmult.
  destruct (floor_size_R (33 * xi)) as (b & Eb & B1 & B2); [lra|cbn; lra|]. rewrite Eb. cbn [bind].
  assert (b <= 32)%Z by (apply Z.lt_succ_r, lt_IZR; cbn; lra).
  replace (b =? 33)%Z with false by lia. rewrite atR by (unfold sizeZ; lia). cbn [bind].
  exists b. split; [lia|]. split; [exact B1|]. f_equal. f_equal. unfold P_BIN. rnum. field.
Qed.
Lemma bins_cosine bounds : length bounds = 33%nat -> cosine_law (angle_bins bounds).
Proof.
  intros L ds mu ds' D H. cbn in H. apply rbind_ok in H as (xi & ds1 & Hd & H). apply draw_ok in Hd. subst ds. apply rlift_ok in H as [H _].
  destruct (bins_sample_form bounds xi L (D xi (or_introl eq_refl))) as (b & _ & _ & E). rewrite E in H. injection H as <-. apply clamp_mu_bounds.
Qed.
Lemma bins_safe bounds xi : length bounds = 33%nat -> 0 <= xi < 1 -> exists mu, @bins_sample R NumR bounds xi = Ok mu /\ -1 <= mu <= 1.
Proof. intros L H. destruct (bins_sample_form bounds xi L H) as (b & _ & _ & E). rewrite E. eexists. split; [reflexivity|apply clamp_mu_bounds]. Qed.
Lemma make_bins_spec bounds b : @make_bins R NumR bounds = Ok b <-> b = bounds /\ length bounds = 33%nat /\ increasing bounds /\ -1 <= getR bounds 0 /\ getR bounds 32 <= 1.
Proof.
  unfold make_bins. destruct (Nat.eqb_spec (length bounds) 33) as [L|L]; cbn [guard bind]; [|split; [discriminate|tauto]].
  destruct (is_sorted bounds) eqn:S; cbn [guard bind].
  2: { split; [discriminate|]. intros (_ & _ & I & _). apply is_sorted_increasing in I. congruence. }
  apply is_sorted_increasing in S. rewrite !atR by (unfold sizeZ; lia). cbn [bind]. rnum.
  destruct (Rltb_spec (getR bounds 0) (- (1))); [split; [discriminate|intros (_ & _ & _ & ? & _); lra]|].
  destruct (Rltb_spec 1 (getR bounds 32)); [split; [discriminate|intros (_ & _ & _ & _ & ?); lra]|].
  split; [intros E; injection E as <-; repeat split; try assumption; lra|intros (-> & _); reflexivity].
Qed.

(** pdf *)
Lemma find_bin_spec bounds mu k : strictly_increasing bounds -> (0 <= k)%Z -> (k + 1 < sizeZ bounds)%Z -> getR bounds k < mu < getR bounds (k + 1) ->
  forall n i, (0 <= i <= k)%Z -> (k < i + Z.of_nat n)%Z -> @find_bin R NumR n bounds mu i = Ok k.
Proof.
  intros S K1 K2 K3. induction n as [|n IH]; intros i Hi Hn; [lia|]. cbn [find_bin]. rewrite atR by lia. cbn [bind]. change (@nleb R NumR) with Rleb.
  assert (getR bounds i <= getR bounds k) by (apply strictly_increasing_increasing; try assumption; lia).
  replace (Rleb (getR bounds i) mu) with true by (symmetry; apply Rleb_true; lra).
  rewrite atR by lia. cbn [bind]. change (@nleb R NumR) with Rleb. destruct (Z.eq_dec i k) as [->|Q].
  - replace (Rleb mu _) with true by (symmetry; apply Rleb_true; lra). reflexivity.
  - assert (getR bounds (i + 1) <= getR bounds k) by (apply strictly_increasing_increasing; try assumption; lia).
    replace (Rleb mu _) with false by (symmetry; apply Rleb_false; lra). apply IH; lia.
Qed.
Lemma find_bin_range bounds mu : (sizeZ bounds = 33)%Z -> forall n i, (0 <= i)%Z -> (i + Z.of_nat n <= 32)%Z ->
  exists k, @find_bin R NumR n bounds mu i = Ok k /\ (0 <= k < 32)%Z.
Proof.
  intros L. induction n as [|n IH]; intros i Hi Hn; cbn [find_bin]; [exists 0%Z; split; [reflexivity|lia]|].
  rewrite atR by lia. cbn [bind]. destruct (IH (i + 1)%Z ltac:(lia) ltac:(lia)) as (k & Ek & Hk).
  destruct (nleb (getR bounds i) mu); [|eauto]. rewrite atR by lia. cbn [bind]. destruct (nleb mu (getR bounds (i + 1))); [|eauto]. exists i. split; [reflexivity|lia].
Qed.
Lemma bins_pdf_value bounds k mu : length bounds = 33%nat -> strictly_increasing bounds -> (0 <= k < 32)%Z -> getR bounds k < mu < getR bounds (k + 1) ->
  bins_pdf bounds mu = Ok (/ 32 / (getR bounds (k + 1) - getR bounds k)).
Proof.
  intros L S Hk H. assert (Ls : sizeZ bounds = 33%Z) by (unfold sizeZ; lia).
  unfold bins_pdf. rewrite frontR_R, backR_R by lia. cbn [bind]. change (@nltb R NumR) with Rltb. rewrite Ls. change (33 - 1)%Z with 32%Z.
  assert (getR bounds 0 <= getR bounds k) by (apply strictly_increasing_increasing; try assumption; lia).
  assert (getR bounds (k + 1) <= getR bounds 32) by (apply strictly_increasing_increasing; try assumption; lia).
  replace (Rltb mu _) with false by (symmetry; apply Rltb_false; lra). replace (Rltb _ mu) with false by (symmetry; apply Rltb_false; lra).
  rewrite (find_bin_spec bounds mu k) by (try assumption; lia). cbn [bind]. rewrite !atR by lia. cbn [bind]. f_equal. unfold P_BIN. rnum. f_equal. field.
Qed.
Lemma bins_pdf_safe bounds mu : length bounds = 33%nat -> exists p, @bins_pdf R NumR bounds mu = Ok p.
Proof.
  intros L. assert (Ls : sizeZ bounds = 33%Z) by (unfold sizeZ; lia). unfold bins_pdf. rewrite frontR_R, backR_R by lia. cbn [bind].
  destruct (nltb mu _); [eauto|]. destruct (nltb _ mu); [eauto|]. destruct (find_bin_range bounds mu Ls 32 0 ltac:(lia) ltac:(lia)) as (k & Ek & Hk).
  rewrite Ek. cbn [bind]. rewrite !atR by lia. cbn [bind]. eauto.
Qed.
Lemma bins_pdf_integral bounds f : length bounds = 33%nat -> strictly_increasing bounds -> (forall mu, bins_pdf bounds mu = Ok (f mu)) ->
  forall k, (0 <= k < 32)%Z -> is_RInt f (getR bounds k) (getR bounds (k + 1)) (/ 32).
Proof.
  intros L S F k Hk. assert (Ls : sizeZ bounds = 33%Z) by (unfold sizeZ; lia). assert (H : getR bounds k < getR bounds (k + 1)) by (apply S; lia).
  apply is_RInt_ext with (fun _ => / 32 / (getR bounds (k + 1) - getR bounds k)).
  - intros x Hx. rewrite Rmin_left, Rmax_right in Hx by lra. pose proof (bins_pdf_value bounds k x L S Hk Hx) as E. rewrite F in E. injection E as E. symmetry; exact E.
  - eapply iR_val; [|apply iR_const]. field. lra.
Qed.
Lemma bins_pdf_total bounds f : length bounds = 33%nat -> strictly_increasing bounds -> (forall mu, bins_pdf bounds mu = Ok (f mu)) ->
  is_RInt f (getR bounds 0) (getR bounds 32) 1.
Proof.
  intros L S F.
  assert (A : forall m, (m <= 32)%nat -> is_RInt f (getR bounds 0) (getR bounds (Z.of_nat m)) (INR m / 32)).
  { induction m as [|m IH]; intros Hm.
    - change (Z.of_nat 0) with 0%Z. cbn [INR]. replace (0 / 32) with 0 by field. exact (@is_RInt_point R_NormedModule f (getR bounds 0%Z)).
    - eapply Chasles_R; [apply IH; lia|replace (Z.of_nat (Datatypes.S m)) with (Z.of_nat m + 1)%Z by lia; apply (bins_pdf_integral bounds f L S F); lia|]. rewrite S_INR. field. }
  replace 1 with (INR 32 / 32); [apply (A 32%nat); lia|]. rewrite INR_IZR_INZ. change (Z.of_nat 32) with 32%Z. field.
Qed.

(** counterexample: 32 equal bins, xi = 99/100 lies in the last bin [15/16,1] *)
Fixpoint uniform_bounds (n : nat) (i : Z) : list R := match n with O => [] | S m => (IZR (i - 16) / 16) :: uniform_bounds m (i + 1) end.
Definition ub : list R := uniform_bounds 33 0.
Lemma uniform_get n : forall i k, (0 <= k < Z.of_nat n)%Z -> getR (uniform_bounds n i) k = IZR (i + k - 16) / 16.
Proof.
  induction n as [|n IH]; intros i k Hk; [lia|]. cbn [uniform_bounds]. destruct (Z.eq_dec k 0) as [->|Q].
  - unfold getR. cbn [Z.to_nat nth]. rewrite Z.add_0_r. reflexivity.
  - replace k with (k - 1 + 1)%Z by lia. rewrite getR_cons_S by lia. rewrite IH by lia. do 2 f_equal. lia.
Qed.
Lemma uniform_length n : forall i, length (uniform_bounds n i) = n. Proof. induction n; intros; cbn; auto. Qed.
Lemma ub_get k : (0 <= k < 33)%Z -> getR ub k = IZR (k - 16) / 16.
Proof. intros H. unfold ub. rewrite uniform_get by lia. reflexivity. Qed.
Lemma ub_strict : strictly_increasing ub.
Proof.
  intros i j Hi Hij Hj. unfold sizeZ, ub in Hj. rewrite uniform_length in Hj. rewrite !ub_get by lia.
  apply Rmult_lt_compat_r; [lra|]. apply IZR_lt. lia.
Qed.
Lemma ub_ok : make_bins ub = Ok ub.
Proof.
  apply make_bins_spec. split; [reflexivity|]. split; [unfold ub; apply uniform_length|]. split; [apply strictly_increasing_increasing, ub_strict|].
  rewrite !ub_get by lia. cbn. lra.
Qed.
Lemma bins_wrong : exists mu, bins_sample ub (99/100) = Ok mu /\ mu = 17/25 /\ ~ (getR ub 31 <= mu <= getR ub 32).
Proof.
  destruct (bins_sample_form ub (99/100)) as (b & B1 & B2 & E); [unfold ub; apply uniform_length|lra|].
  assert (b = 32)%Z as -> by (assert (31 < b)%Z by (apply lt_IZR; lra); lia).
  rewrite E, ub_get by lia. change (32 - 16)%Z with 16%Z.
  exists (17/25). split; [f_equal; rewrite clamp_mu_id; lra|]. split; [reflexivity|]. rewrite !ub_get by lia. cbn. lra.
Qed.

(** ** AngleDistribution *)
Lemma adist_cosine a E ds mu ds' : (forall l, In l (ad_laws a) -> cosine_law l) -> draws01 ds -> adist_sample a E ds = Ok (mu, ds') -> -1 <= mu <= 1.
Proof.
  intros HL D H. unfold adist_sample in H. apply rbind_ok in H as (k & ds1 & H1 & H). apply rlift_ok in H1 as [_ <-].
  destruct (k =? 0)%Z.
  { apply rbind_ok in H as (l & ds1 & H1 & H). apply rlift_ok in H1 as [H1 <-]. eapply (HL l); [eapply atZ_In; exact H1|exact D|exact H]. }
  destruct (k =? sizeZ (ad_energy a))%Z.
  { apply rbind_ok in H as (l & ds1 & H1 & H). apply rlift_ok in H1 as [H1 <-]. eapply (HL l); [eapply atZ_In; exact H1|exact D|exact H]. }
  repeat (apply rbind_ok in H as (? & ? & _ & H)). apply rret_ok in H as [<- _]. apply clamp_mu_bounds.
Qed.
Section Sel.
  Variables (energy : list R) (laws : list (alaw R)) (a : adist R).
  Hypothesis M : make_adist energy laws = Ok a.
  Lemma adist_inv : increasing energy /\ length laws = length energy /\ a = mkADist energy laws.
  Proof.
    unfold make_adist in M. apply bind_ok in M as (? & G1 & M1). apply guard_ok in G1. apply Nat.eqb_eq in G1.
    apply bind_ok in M1 as (? & G2 & M2). apply guard_ok in G2. apply is_sorted_increasing in G2. injection M2 as <-. auto.
  Qed.
  Lemma adist_front E l : (1 <= sizeZ energy)%Z -> E <= getR energy 0 -> atZ laws 0 = Ok l ->
    (forall ds, adist_sample a E ds = al_sample l ds) /\ forall mu, adist_pdf a E mu = al_pdf l mu.
  Proof.
    intros Hn H Hl. destruct adist_inv as (I & L & ->). unfold adist_sample, adist_pdf, rbind, rlift. cbn [ad_energy ad_laws].
    rewrite (lower_boundR_eq energy E 0 I).
    - cbn [bind Z.eqb]. unfold frontR. rewrite Hl. split; reflexivity.
    - split; [lia|]. split; intros i Hi; [lia|]. assert (getR energy 0 <= getR energy i) by (apply I; lia). lra.
  Qed.
  Lemma adist_back E l : (1 <= sizeZ energy)%Z -> getR energy (sizeZ energy - 1) < E -> atZ laws (sizeZ energy - 1) = Ok l ->
    (forall ds, adist_sample a E ds = al_sample l ds) /\ forall mu, adist_pdf a E mu = al_pdf l mu.
  Proof.
    intros Hn H Hl. destruct adist_inv as (I & L & ->). unfold adist_sample, adist_pdf, rbind, rlift. cbn [ad_energy ad_laws].
    rewrite (lower_boundR_eq energy E (sizeZ energy) I).
    - cbn [bind]. replace (sizeZ energy =? 0)%Z with false by lia. rewrite Z.eqb_refl. unfold backR. replace (sizeZ laws) with (sizeZ energy) by (unfold sizeZ; lia). rewrite Hl. split; reflexivity.
    - split; [lia|]. split; intros i Hi; [|lia]. assert (getR energy i <= getR energy (sizeZ energy - 1)) by (apply I; lia). lra.
  Qed.
  Lemma adist_between E k l1 l2 : (0 <= k)%Z -> (k + 1 < sizeZ energy)%Z -> getR energy k < E <= getR energy (k + 1) ->
    atZ laws k = Ok l1 -> atZ laws (k + 1) = Ok l2 -> (forall l, In l laws -> cosine_law l) ->
    let f := (E - getR energy k) / (getR energy (k + 1) - getR energy k) in
    (forall xi ds, draws01 ds -> adist_sample a E (xi :: ds) = al_sample (if Rltb f xi then l1 else l2) ds) /\
    (forall mu p1 p2, al_pdf l1 mu = Ok p1 -> al_pdf l2 mu = Ok p2 -> adist_pdf a E mu = Ok ((1 - f) * p1 + f * p2)).
  Proof.
    intros K1 K2 H H1 H2 C f. destruct adist_inv as (I & L & ->).
    assert (Lb : lower_bound energy E = Ok (k + 1)%Z).
    { apply (lower_boundR_eq energy E (k + 1) I). split; [lia|]. split; intros i Hi.
      - assert (getR energy i <= getR energy k) by (apply I; lia). lra.
      - assert (getR energy (k + 1) <= getR energy i) by (apply I; lia). lra. }
    split.
    - intros xi ds D. unfold adist_sample, rbind, rlift, rret, draw. cbn [ad_energy ad_laws]. rewrite Lb. cbn [bind].
      replace (k + 1 =? 0)%Z with false by lia. replace (k + 1 =? sizeZ energy)%Z with false by lia. replace (k + 1 - 1)%Z with k by lia.
      rewrite !atR by lia. cbn [bind]. change (@nsub R NumR) with Rminus. change (@ndiv R NumR) with Rdiv. change (@nltb R NumR) with Rltb. fold f.
      replace (atZ laws (if Rltb f xi then k else (k + 1)%Z)) with (Ok (if Rltb f xi then l1 else l2)) by (destruct (Rltb f xi); auto). cbn [bind].
      set (l := if Rltb f xi then l1 else l2). assert (Cl : cosine_law l) by (unfold l; destruct (Rltb f xi); apply C; eapply atZ_In; eassumption).
      destruct (al_sample l ds) as [[mu ds']| | |] eqn:E1; try reflexivity. rewrite clamp_mu_id by (eapply Cl; [exact D|exact E1]). reflexivity.
    - intros mu p1 p2 P1 P2. unfold adist_pdf. cbn [ad_energy ad_laws]. rewrite Lb. cbn [bind].
      replace (k + 1 =? 0)%Z with false by lia. replace (k + 1 =? sizeZ energy)%Z with false by lia. replace (k + 1 - 1)%Z with k by lia.
      rewrite !atR by lia. cbn [bind]. rewrite H1. cbn [bind]. rewrite P1. cbn [bind]. rewrite H2. cbn [bind]. rewrite P2. reflexivity.
  Qed.
End Sel.
Lemma adist_empty_ub : exists a : adist R, make_adist [] [] = Ok a /\ forall E ds, adist_sample a E ds = UB.
Proof. eexists. split; [reflexivity|]. intros. reflexivity. Qed.
