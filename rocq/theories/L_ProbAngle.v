(** * The laws of the angular distributions, of Kalbach cosines and of TabularEnergy *)
From Coq Require Import Reals Lra Lia List Arith ZifyBool ZifyNat. From Coquelicot Require Import Coquelicot.
From Verif Require Import Base NumR M_Interp M_PC M_Legendre S_Legendre S_PC M_OutE S_OutE L_Search L_SearchR L_PC L_PCR L_Legendre L_LegBound L_Angle L_OutE L_OutE3 L_OutE4 S_Prob L_Prob L_ProbEv L_ProbLaw. Import ListNotations.
Local Open Scope R_scope.
Local Notation iR := (@is_RInt R_NormedModule).

Lemma open_01 ds : open01 ds -> draws01 ds.
Proof. intros H x Hx. unfold open01 in H. rewrite Forall_forall in H. specialize (H x Hx). cbv beta in H. lra. Qed.
(** ** Isotropic *)
Lemma isotropic_density : exists f, (forall mu, al_pdf (@isotropic R NumR) mu = Ok (f mu)) /\ has_density (al_sample (@isotropic R NumR)) (-1) 1 f.
Proof.
  pose (f := fun mu => if Rltb mu (-1) || Rltb 1 mu then 0 else 1 / 2). assert (F : forall x, -1 <= x <= 1 -> f x = 1 / 2). { intros x Hx. unfold f. rewrite (proj2 (Rltb_false x (-1))), (proj2 (Rltb_false 1 x)) by lra. reflexivity. }
  assert (I : forall x, -1 <= x <= 1 -> iR f (-1) x ((x + 1) / 2)). { intros x Hx. eapply iR_eq; [|apply (iR_const_on f (-1) x (1 / 2)); [lra|intros y Hy; apply F; lra]]. field. }
  exists f. split; [intros mu; cbn; unfold f; replace (- (1)) with (-1) by ring; reflexivity|]. apply (density_inverse _ (fun x => 2 * x - 1)); [lra|discriminate|intros x Hx; rewrite F; lra| | |].
  - eapply iR_eq; [|apply I; lra]. field.
  - intros x ds Hx _. apply isotropic_value. lra.
  - intros x Hx. split; [lra|]. eapply iR_eq; [|apply I; lra]. field.
Qed.
(** ** probability tables *)
Definition tdens (t : pctable R) : R -> R := dens (pc_values t) (pc_pdfs t) (pc_cdf t) (pc_interp t).
Definition pcs (t : pctable R) (ds : list R) : res (R * list R) := match ds with x :: r => let! v := pc_sample t x in Ok (v, r) | [] => NoDraw end.
Lemma pcs_density t : valid_pc t -> (forall mu, pc_pdf t mu = Ok (tdens t mu)) /\ has_density (pcs t) (first_of (pc_values t)) (last_of (pc_values t)) (tdens t).
Proof.
  intros V. destruct t as [values pdf cdf i]. unfold valid_pc in V. cbn in V. unfold tdens. cbn [pc_values pc_pdfs pc_cdf pc_interp]. split; [apply (dens_ok _ _ _ _ V)|].
  assert (Hn : (1 <= sizeZ values)%Z) by (destruct V; assumption). assert (Hc : sizeZ cdf = sizeZ values) by (destruct V; unfold sizeZ; congruence). pose proof (valid_wide _ _ _ _ V) as W.
  pose (phi := fun x => match pc_sample (mkPC values pdf cdf i) x with Ok v => v | _ => 0 end).
  assert (Ph : forall x, 0 < x < 1 -> pc_sample (mkPC values pdf cdf i) x = Ok (phi x) /\ first_of values <= phi x <= last_of values /\ iR (dens values pdf cdf i) (first_of values) (phi x) x).
  { intros x Hx. destruct (sample_spec values pdf cdf i V x ltac:(lra)) as (v & k & S & I & K1 & K2 & K3 & K4). change (tbl values pdf cdf i) with (mkPC values pdf cdf i) in S. assert (E : phi x = v) by (unfold phi; rewrite S; reflexivity). rewrite E. split; [exact S|]. split; [|exact I].
    pose proof (vt_values _ _ _ _ V) as Inc. unfold first_of, last_of. assert (getR values 0 <= getR values k) by (apply Inc; lia). assert (getR values (k + 1) <= getR values (sizeZ values - 1)) by (apply Inc; lia). lra. }
  apply (density_inverse _ phi).
  - unfold first_of, last_of in *. lra.
  - discriminate.
  - intros x _. apply (dens_nonneg _ _ _ _ V).
  - pose proof (integral_from_0 _ _ _ _ V (sizeZ values - 1)%Z ltac:(lia)) as H. pose proof (vt_last _ _ _ _ V) as L. rewrite Hc in L. rewrite L in H. exact H.
  - intros x ds Hx _. cbn [pcs]. rewrite (proj1 (Ph x Hx)). reflexivity.
  - intros x Hx. apply Ph. exact Hx.
Qed.
Lemma pcs_range t v ds r : valid_pc t -> open01 ds -> pcs t ds = Ok (v, r) -> first_of (pc_values t) <= v <= last_of (pc_values t).
Proof.
  intros V F H. destruct ds as [|x ds]; [discriminate|]. inversion F; subst. destruct (valid_sample t x V ltac:(lra)) as (h & Eh & B). cbn [pcs] in H. rewrite Eh in H. injection H as <- _. exact B.
Qed.
Lemma tdens_outside t x : valid_pc t -> x < first_of (pc_values t) \/ last_of (pc_values t) < x -> tdens t x = 0.
Proof. intros V H. unfold tdens. apply (dens_outside _ _ _ _ V). exact H. Qed.
Lemma angle_table_density t t' : valid_pc t -> make_angle_table t = Ok t' -> (forall mu, al_pdf (angle_table t') mu = Ok (tdens t mu)) /\ has_density (al_sample (angle_table t')) (-1) 1 (tdens t).
Proof.
  intros V Mk. destruct (pcs_density t V) as [P1 P2]. pose proof (valid_wide _ _ _ _ V) as W. assert (Hn : (1 <= sizeZ (pc_values t))%Z) by (destruct V; assumption).
  unfold make_angle_table, pc_min, pc_max in Mk. unfold frontR in Mk. rewrite (atR (pc_values t) 0) in Mk by lia. cbn [bind] in Mk. rewrite backR_R in Mk by lia. cbn [bind] in Mk. change (@nltb R NumR) with Rltb in Mk. change (@nopp R NumR (@nofZ R NumR 1)) with (- (1)) in Mk. change (@nofZ R NumR 1) with 1 in Mk.
  destruct (Rltb_spec (getR (pc_values t) 0) (- (1))) as [|B1]; [discriminate|]. destruct (Rltb_spec 1 (getR (pc_values t) (sizeZ (pc_values t) - 1))) as [|B2]; [discriminate|]. apply Ok_eq in Mk. subst t'. fold (first_of (pc_values t)) in B1. fold (last_of (pc_values t)) in B2.
  split; [exact P1|]. apply (density_same (pcs t)).
  - intros ds F. destruct ds as [|x ds]; [reflexivity|]. inversion F; subst. destruct (valid_sample t x V ltac:(lra)) as (h & Eh & B). cbn [al_sample angle_table pcs]. unfold rbind, draw, rlift, rret. rewrite Eh. cbn [bind]. rewrite clamp_mu_id by lra. reflexivity.
  - apply (density_widen (pcs t) (first_of (pc_values t)) (last_of (pc_values t))); try lra; [| |exact P2].
    + intros v ds r F H. exact (pcs_range t v ds r V F H).
    + intros x H. apply tdens_outside; assumption.
Qed.
(** ** Legendre *)
Lemma legendre_density a d : make_leg a = Ok d -> (forall mu, -1 <= mu <= 1 -> 0 <= series 0 (1 :: a) mu) -> (forall mu, -1 <= mu <= 1 -> series 0 (1 :: a) mu <= lg_max d) -> 0 < lg_max d ->
  has_density (leg_sample d) (-1) 1 (leg_pdf (lg_a d)).
Proof.
  intros Mk Pos Mx Pm. set (M := lg_max d) in *. pose (p := series 0 (1 :: a)). assert (Pd : forall mu, leg_pdf (lg_a d) mu = p mu) by (apply (make_leg_pdf a d Mk)).
  assert (Cp : forall x, continuous p x) by (intros x; eapply L_Interp2.cont_of_derive, series_d1).
  assert (Ip : forall e, iR p (-1) e (RInt p (-1) e)) by (intros e; apply (@RInt_correct R_CompleteNormedModule), (@ex_RInt_continuous R_CompleteNormedModule); intros; apply Cp).
  pose (q := fun x => p (2 * x - 1) / M). assert (Hq : forall x, 0 < x < 1 -> 0 <= q x <= 1). { intros x Hx. unfold q. pose proof (Pos (2 * x - 1) ltac:(lra)). pose proof (Mx (2 * x - 1) ltac:(lra)). fold p in H, H0. split; [apply Rle_div_r; lra|apply Rle_div_l; lra]. }
  assert (Iq : forall e, -1 <= e <= 1 -> iR q 0 ((e + 1) / 2) (/ (2 * M) * RInt p (-1) e)).
  { intros e He. apply (iR_ext (fun x => / (2 * M) * (2 * p (2 * x + -1)))); [lra|intros x _; unfold q; replace (2 * x + -1) with (2 * x - 1) by ring; field; lra|]. apply iR_scal. apply (@is_RInt_comp_lin R_NormedModule p 2 (-1) 0 ((e + 1) / 2)). replace (2 * 0 + -1) with (-1) by ring. replace (2 * ((e + 1) / 2) + -1) with e by field. apply Ip. }
  assert (Rj : rejects (leg_sample d) 2 (fun l => match l with x1 :: _ => 2 * x1 - 1 | _ => 0 end) (fun l => match l with [x1; x2] => x2 < q x1 | _ => False end)).
  { split; [lia|]. split.
    - intros l r [L _] _. destruct l as [|x1 [|x2 [|]]]; try discriminate. cbn [app leg_sample]. change (@nltb R NumR) with Rltb. rnum. rewrite Pd. fold M. fold (q x1). destruct (Rltb_spec x2 (q x1)) as [C|C]; [left|right]; (split; [lra|reflexivity]).
    - intros l L v r. destruct l as [|x1 [|x2 l]]; cbn in L; [discriminate|discriminate|lia]. }
  assert (N : RInt p (-1) 1 = 1) by (apply (@is_RInt_unique R_CompleteNormedModule), series_normalised). assert (Pi : 0 < / (2 * M)) by (apply Rinv_0_lt_compat; lra).
  assert (Acc : prob 2 (fun l => match l with [x1; x2] => x2 < q x1 | _ => False end) (/ (2 * M))).
  { apply (prob_ext 2 (fun l => match l with [x; y] => y < q x /\ x <= 1 | _ => False end)).
    - intros l [L F]. destruct l as [|x [|y [|]]]; try discriminate. inversion F; subst. split; intros; [tauto|split; [tauto|lra]].
    - apply under_prob; [lra|exact Hq|]. pose proof (Iq 1 ltac:(lra)) as X. rewrite N in X. replace ((1 + 1) / 2) with 1 in X by field. replace (/ (2 * M) * 1) with (/ (2 * M)) in X by ring. exact X. }
  assert (L : forall e, -1 <= e <= 1 -> law (leg_sample d) (fun v => v <= e) (RInt p (-1) e)).
  { intros e He. eapply law_val; [|apply (law_rejects _ 2 _ _ (fun v => v <= e) (/ (2 * M)) (/ (2 * M) * RInt p (-1) e) Rj Acc)]; [field; lra| |exact Pi].
    apply (prob_ext 2 (fun l => match l with [x; y] => y < q x /\ x <= (e + 1) / 2 | _ => False end)); [|apply under_prob; [lra|exact Hq|apply Iq; exact He]]. intros l [L _]. destruct l as [|x [|y [|]]]; try discriminate. split; intros [A B]; (split; [exact A|lra]). }
  split.
  - apply (law_ext01 _ (fun v => v <= 1)); [|eapply law_val; [exact N|apply L; lra]]. intros v ds r F H. pose proof (leg_sample_range d ds v r (open_01 ds F) H). split; intros; lra.
  - intros e He. exists (RInt p (-1) e). split; [apply L; exact He|]. apply (@is_RInt_ext R_NormedModule p); [intros x _; symmetry; apply Pd|apply Ip].
Qed.
(** ** AngleDistribution *)
Definition follows (l : alaw R) : Prop := exists f, (forall mu, al_pdf l mu = Ok (f mu)) /\ has_density (al_sample l) (-1) 1 f.
Lemma adist_density energy laws a E : make_adist energy laws = Ok a -> (1 <= sizeZ energy)%Z -> (forall l, In l laws -> cosine_law l /\ follows l) ->
  exists f, (forall mu, adist_pdf a E mu = Ok (f mu)) /\ has_density (adist_sample a E) (-1) 1 f.
Proof.
  intros Mk Hn HL. pose proof (adist_inv energy laws a Mk) as (Inc & L & Ea). assert (Lz : sizeZ laws = sizeZ energy) by (unfold sizeZ; lia).
  assert (At : forall k, (0 <= k < sizeZ energy)%Z -> exists l, atZ laws k = Ok l /\ cosine_law l /\ follows l). { intros k Hk. destruct (atZ_ok laws k ltac:(lia)) as (l & El). exists l. split; [exact El|]. apply HL. eapply atZ_In. exact El. }
  destruct (Rle_dec E (getR energy 0)) as [C0|C0].
  { destruct (At 0%Z ltac:(lia)) as (l & El & _ & f & Pf & Df). destruct (adist_front energy laws a Mk E l Hn C0 El) as [S1 S2]. exists f. split; [intros mu; rewrite S2; apply Pf|]. apply (density_same (al_sample l)); [intros; symmetry; apply S1|exact Df]. }
  destruct (Rlt_dec (getR energy (sizeZ energy - 1)) E) as [C1|C1].
  { destruct (At (sizeZ energy - 1)%Z ltac:(lia)) as (l & El & _ & f & Pf & Df). destruct (adist_back energy laws a Mk E l Hn C1 El) as [S1 S2]. exists f. split; [intros mu; rewrite S2; apply Pf|]. apply (density_same (al_sample l)); [intros; symmetry; apply S1|exact Df]. }
  assert (Seg : exists k, (0 <= k)%Z /\ (k + 1 < sizeZ energy)%Z /\ getR energy k < E <= getR energy (k + 1)).
  { pose proof (lower_boundR energy E Inc) as (k & Ek & K1 & K2 & K3). assert (k <> 0)%Z by (intros ->; assert (E <= getR energy 0) by (apply K3; lia); lra). assert (k <> sizeZ energy)%Z by (intros ->; assert (getR energy (sizeZ energy - 1) < E) by (apply K2; lia); lra).
    exists (k - 1)%Z. split; [lia|]. split; [lia|]. replace (k - 1 + 1)%Z with k by lia. split; [apply K2; lia|apply K3; lia]. }
  destruct Seg as (k & K1 & K2 & K3). destruct (At k ltac:(lia)) as (l1 & E1 & Cl1 & f1 & P1 & D1). destruct (At (k + 1)%Z ltac:(lia)) as (l2 & E2 & Cl2 & f2 & P2 & D2).
  destruct (adist_between energy laws a Mk E k l1 l2 K1 K2 K3 E1 E2 (fun l Hl => proj1 (HL l Hl))) as [S1 S2]. set (c := (E - getR energy k) / (getR energy (k + 1) - getR energy k)) in *.
  assert (Hc : 0 <= c <= 1) by (unfold c; split; [apply Rle_div_r; lra|apply Rle_div_l; lra]).
  exists (fun mu => (1 - c) * f1 mu + c * f2 mu). split; [intros mu; apply S2; [apply P1|apply P2]|]. apply (density_mix _ (al_sample l1) (al_sample l2)); try assumption.
  - intros v r. subst a. unfold adist_sample, rbind, rlift. cbn [ad_energy ad_laws]. assert (Lb : lower_bound energy E = Ok (k + 1)%Z).
    { apply (lower_boundR_eq energy E (k + 1) Inc). split; [lia|]. split; intros i Hi; [assert (getR energy i <= getR energy k) by (apply Inc; lia); lra|assert (getR energy (k + 1) <= getR energy i) by (apply Inc; lia); lra]. }
    rewrite Lb. cbn [bind]. replace (k + 1 =? 0)%Z with false by lia. replace (k + 1 =? sizeZ energy)%Z with false by lia. rewrite (atR energy (k + 1 - 1)) by lia. cbn [bind]. rewrite (atR energy (k + 1 - 1 + 1)) by lia. cbn [bind draw]. discriminate.
  - intros x ds Hx F. rewrite (S1 x ds (open_01 ds F)). destruct (Rltb_spec c x), (Rlt_dec c x); try reflexivity; lra.
Qed.
(** ** Kalbach cosines *)
Lemma kalbach_pos a r mu : 0 < a -> 0 <= r <= 1 -> 0 <= kalbach_density a r mu.
Proof.
  intros Ha Hr. unfold kalbach_density. pose proof (sinh_pos a Ha). apply Rmult_le_pos; [left; apply Rdiv_lt_0_compat; lra|]. unfold cosh, sinh. pose proof (exp_pos (a * mu)). pose proof (exp_pos (- (a * mu))). nra.
Qed.
Lemma kal_mu_density a r : 0 < a -> 0 <= r <= 1 -> has_density (kal_mu r a) (-1) 1 (kalbach_density a r).
Proof.
  intros Ha Hr. pose proof (sinh_pos a Ha) as Hs.
  assert (N : forall c, iR (kalbach_density a c) (-1) 1 1). { intros c. eapply iR_val; [|apply kalbach_cdf; lra]. rewrite !Rmult_1_r. replace (a * -1) with (- a) by ring. unfold sinh, cosh in *. rewrite Ropp_involutive. field. lra. }
  assert (D : forall c (s : rand R R), 0 <= c <= 1 -> (forall v r0, s [] <> Ok (v, r0)) -> (forall y ds, 0 < y < 1 -> open01 ds -> s (y :: ds) = match s [y] with Ok (v, _) => Ok (v, ds) | _ => UB end) ->
     (forall y, 0 < y < 1 -> exists mu, s [y] = Ok (mu, []) /\ -1 <= mu <= 1 /\ iR (kalbach_density a c) (-1) mu y) -> has_density s (-1) 1 (kalbach_density a c)).
  { intros c s Hc S0 S1 S2. apply (density_inverse s (fun y => match s [y] with Ok (v, _) => v | _ => 0 end)); [lra|exact S0|intros; apply kalbach_pos; assumption|apply N| |].
    - intros y ds Hy F. rewrite (S1 y ds Hy F). destruct (S2 y Hy) as (mu & E & _). rewrite E. reflexivity.
    - intros y Hy. destruct (S2 y Hy) as (mu & E & B & I). rewrite E. split; assumption. }
  pose (s1 := fun ds => kal_mu r a ((r + 1) :: ds)). pose (s2 := fun ds => kal_mu r a ((r - 1) :: ds)).
  apply (density_ext _ _ _ (fun mu => (1 - r) * kalbach_density a 0 mu + r * kalbach_density a 1 mu)); [intros; symmetry; apply kalbach_mixture|].
  assert (G1 : Rltb r (r + 1) = true) by (apply Rltb_true; lra). assert (G2 : Rltb r (r - 1) = false) by (apply Rltb_false; lra).
  apply (density_mix _ s1 s2); [exact Hr|discriminate| | |].
  - intros x ds Hx _. unfold s1, s2. unfold kal_mu at 1 2 3. unfold rbind, draw. cbn [bind]. change (@nltb R NumR) with Rltb. rewrite G1, G2. destruct (Rltb_spec r x), (Rlt_dec r x); try reflexivity; lra.
  - apply D; [lra| | |].
    + intros v r0. unfold s1, kal_mu, rbind, draw. cbn [bind]. change (@nltb R NumR) with Rltb. rewrite G1. discriminate.
    + intros y ds _ _. unfold s1, kal_mu, rbind, draw, rret. cbn [bind]. change (@nltb R NumR) with Rltb. rewrite G1. reflexivity.
    + intros y Hy. destruct (kal_mu_sym r a (r + 1) y [] Ha ltac:(lra) ltac:(lra)) as (mu & E & B & C). exists mu. split; [exact E|]. split; [exact B|]. apply sym_cdf; assumption.
  - apply D; [lra| | |].
    + intros v r0. unfold s2, kal_mu, rbind, draw. cbn [bind]. change (@nltb R NumR) with Rltb. rewrite G2. discriminate.
    + intros y ds _ _. unfold s2, kal_mu, rbind, draw, rret. cbn [bind]. change (@nltb R NumR) with Rltb. rewrite G2. reflexivity.
    + intros y Hy. destruct (kal_mu_exp r a (r - 1) y [] Ha ltac:(lra) ltac:(lra)) as (mu & E & B & C). exists mu. split; [exact E|]. split; [exact B|]. apply exp_cdf; assumption.
Qed.
