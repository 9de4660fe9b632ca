(** * Properties C11-C18: tabulated distributions and angular laws *)
From Coquelicot Require Import Coquelicot.
From Verif Require Import NumF Base NumR L_SearchR M_Interp M_PC S_PC L_PC L_PCR M_Legendre S_Legendre L_Legendre L_Angle L_OrderF L_PCF.
From Coq Require Import Reals List. Import ListNotations.
Local Open Scope R_scope.

(** ** C11: sampling is the exact inverse CDF. [dens values pdf cdf i] is the function x |-> pdf(x) of the table. *)
Theorem C11_inverse_cdf : forall values pdf cdf i xi t, valid_table values pdf cdf i -> make_pc values pdf cdf i = Ok t -> 0 <= xi < 1 ->
  exists x k (f : R -> R), pc_sample t xi = Ok x /\ (forall y, pc_pdf t y = Ok (f y)) /\ is_RInt f (getR values 0) x xi /\
    (0 <= k)%Z /\ (k + 1 < sizeZ values)%Z /\ getR cdf k <= xi <= getR cdf (k + 1) /\ getR values k <= x <= getR values (k + 1).
Proof.
  intros values pdf cdf i xi t V M H. rewrite (valid_accepted _ _ _ _ V) in M. injection M as <-.
  destruct (sample_spec values pdf cdf i V xi H) as (x & k & S & I & K1 & K2 & K3 & K4).
  exists x, k, (dens values pdf cdf i). split; [exact S|]. split; [exact (dens_ok _ _ _ _ V)|]. auto 10.
Qed.
Print Assumptions C11_inverse_cdf.
Theorem C11_monotone : forall values pdf cdf i t a b x y, valid_table values pdf cdf i -> make_pc values pdf cdf i = Ok t ->
  0 <= a -> a <= b -> b < 1 -> pc_sample t a = Ok x -> pc_sample t b = Ok y -> x <= y.
Proof. intros values pdf cdf i t a b x y V M. rewrite (valid_accepted _ _ _ _ V) in M. injection M as <-. exact (sample_monotone values pdf cdf i V a b x y). Qed.
Print Assumptions C11_monotone.
(** every such table is accepted *)
Theorem C11_valid_tables_accepted : forall values pdf cdf i, valid_table values pdf cdf i -> make_pc values pdf cdf i = Ok (mkPC values pdf cdf i).
Proof. exact valid_accepted. Qed.
Print Assumptions C11_valid_tables_accepted.
Lemma three_segments : valid_table [-1; 0; 1] [1/4; 3/4; 1/4] [0; 1/2; 1] LinLin.
Proof.
  split; try reflexivity.
  - right; reflexivity.
  - cbn. lia.
  - apply increasing_step. intros k H1 H2. assert (k = 0 \/ k = 1)%Z as [-> | ->] by (cbn in H2; lia); getz; cbn [seg_area]; lra.
  - cbn. intros p [<-|[<-|[<-|[]]]]; lra.
  - intros k H1 H2. assert (k = 0 \/ k = 1)%Z as [-> | ->] by (cbn in H2; lia); getz; cbn [seg_area]; lra.
Qed.
Example C11_nonvacuous : valid_table [-1; 0; 1] [1/4; 3/4; 1/4] [0; 1/2; 1] LinLin. Proof. exact three_segments. Qed.

(** ** C12: memory safety of sampling *)
Theorem C12_sample_safe_partial : forall values pdf cdf i t xi c0, make_pc values pdf cdf i = Ok t -> 0 <= xi < 1 -> atZ (pc_cdf t) 0 = Ok c0 -> c0 <= xi ->
  exists v : R, pc_sample t xi = Ok v.
Proof.
  intros values pdf cdf i t xi c0 M X E C.
  destruct (sample_safe (fun _ : R => True) NumR_order I values pdf cdf i t xi c0 M (ForallTrue _) I) as [[_ H]|[H _]];
    [apply Rltb_true; change (@nofZ R NumR 1) with 1; lra|exact E|exact H|apply Rltb_true in H; lra].
Qed.
Print Assumptions C12_sample_safe_partial.
Theorem C12_sample_safe_binary64_partial : forall lm values pdf cdf i t xi c0, @make_pc float (NumF lm) values pdf cdf i = Ok t ->
  Forall notNaN cdf -> notNaN xi -> PrimFloat.ltb xi 1%float = true -> atZ (pc_cdf t) 0 = Ok c0 ->
  (PrimFloat.ltb xi c0 = false /\ exists v, @pc_sample float (NumF lm) t xi = Ok v) \/ (PrimFloat.ltb xi c0 = true /\ @pc_sample float (NumF lm) t xi = UB).
Proof. exact sample_safeF. Qed.
Print Assumptions C12_sample_safe_binary64_partial.
Theorem C12_pdf_safe_binary64 : forall lm values pdf cdf i t v, @make_pc float (NumF lm) values pdf cdf i = Ok t ->
  Forall notNaN values -> notNaN v -> exists p, @pc_pdf float (NumF lm) t v = Ok p.
Proof. exact pdf_safeF. Qed.
Print Assumptions C12_pdf_safe_binary64.
(** an accepted table whose first cdf entry is positive reads out of range for every smaller xi *)
Theorem C12_first_cdf_refuted : forall lm, exists t, @make_pc float (NumF lm) [0%float; 1%float] [1%float; 1%float] [0.5%float; 1%float] LinLin = Ok t /\
  @pc_sample float (NumF lm) t 0.25%float = UB.
Proof. exact sample_ubF. Qed.
Print Assumptions C12_first_cdf_refuted.
Example C12_nonvacuous : exists (t : pctable R) c0, make_pc [-1; 0; 1] [1/4; 3/4; 1/4] [0; 1/2; 1] LinLin = Ok t /\ atZ (pc_cdf t) 0 = Ok c0 /\ c0 <= 1/3.
Proof. eexists. exists 0. split; [exact (valid_accepted _ _ _ _ three_segments)|]. split; [reflexivity|lra]. Qed.

(** ** C13: the pdf is a density consistent with the cdf *)
Theorem C13_density : forall values pdf cdf i t, valid_table values pdf cdf i -> make_pc values pdf cdf i = Ok t ->
  exists f : R -> R, (forall x, pc_pdf t x = Ok (f x)) /\ (forall x, 0 <= f x) /\
    (forall x, x < getR values 0 \/ getR values (sizeZ values - 1) < x -> f x = 0) /\
    (forall j k, (0 <= j < sizeZ values)%Z -> (0 <= k < sizeZ values)%Z -> is_RInt f (getR values j) (getR values k) (getR cdf k - getR cdf j)) /\
    is_RInt f (getR values 0) (getR values (sizeZ values - 1)) 1.
Proof.
  intros values pdf cdf i t V M. rewrite (valid_accepted _ _ _ _ V) in M. injection M as <-. exists (dens values pdf cdf i).
  split; [exact (dens_ok _ _ _ _ V)|]. split; [exact (dens_nonneg _ _ _ _ V)|]. split; [exact (dens_outside _ _ _ _ V)|].
  assert (Hn : (1 <= sizeZ values)%Z) by (destruct V; assumption). assert (Hc : sizeZ cdf = sizeZ values) by (destruct V; unfold sizeZ; congruence).
  split; [exact (integral_between _ _ _ _ V)|].
  pose proof (integral_from_0 _ _ _ _ V (sizeZ values - 1)%Z ltac:(lia)) as H. pose proof (vt_last _ _ _ _ V) as L. rewrite Hc in L. rewrite L in H. exact H.
Qed.
Print Assumptions C13_density.
(** inside a segment the density is the segment's interpolation *)
Theorem C13_segment : forall values pdf cdf i t k x, valid_table values pdf cdf i -> make_pc values pdf cdf i = Ok t -> (0 <= k)%Z -> (k + 1 < sizeZ values)%Z ->
  getR values k < x < getR values (k + 1) -> pc_pdf t x = Ok (match i with Histogram => getR pdf k
    | _ => getR pdf k + (x - getR values k) * ((getR pdf (k + 1) - getR pdf k) / (getR values (k + 1) - getR values k)) end).
Proof.
  intros values pdf cdf i t k x V M K1 K2 H. rewrite (valid_accepted _ _ _ _ V) in M. injection M as <-. rewrite (dens_ok _ _ _ _ V). f_equal.
  rewrite (dens_open _ _ _ _ V k x K1 K2 H). unfold seg. destruct (vt_interp _ _ _ _ V) as [-> | ->]; cbn [interpolate]; [reflexivity|].
  unfold linlin_interpolate. rnum. field. lra.
Qed.
Print Assumptions C13_segment.
Example C13_nonvacuous : exists t : pctable R, make_pc [-1; 0; 1] [1/4; 3/4; 1/4] [0; 1/2; 1] LinLin = Ok t.
Proof. eexists. exact (valid_accepted _ _ _ _ three_segments). Qed.

(** ** C14: cosines in [-1,1] *)
Theorem C14_isotropic : forall ds mu ds', draws01 ds -> al_sample (@isotropic R NumR) ds = Ok (mu, ds') -> -1 <= mu <= 1.
Proof. exact isotropic_cosine. Qed.
Print Assumptions C14_isotropic.
Theorem C14_bins : forall b bounds ds mu ds', make_bins b = Ok bounds -> draws01 ds -> al_sample (@angle_bins R NumR bounds) ds = Ok (mu, ds') -> -1 <= mu <= 1.
Proof. intros b bounds ds mu ds' M. apply make_bins_spec in M as (-> & L & _). exact (bins_cosine b L ds mu ds'). Qed.
Print Assumptions C14_bins.
Theorem C14_table : forall (t : pctable R) ds mu ds', draws01 ds -> al_sample (angle_table t) ds = Ok (mu, ds') -> -1 <= mu <= 1.
Proof. exact angle_table_cosine. Qed.
Print Assumptions C14_table.
Theorem C14_legendre : forall (d : legd R) ds mu ds', draws01 ds -> leg_sample d ds = Ok (mu, ds') -> -1 <= mu < 1.
Proof. intros d ds mu ds' D H. exact (leg_sample_range d ds mu ds' D H). Qed.
Print Assumptions C14_legendre.
Theorem C14_angle_distribution : forall (a : adist R) E ds mu ds', (forall l, In l (ad_laws a) -> cosine_law l) -> draws01 ds ->
  adist_sample a E ds = Ok (mu, ds') -> -1 <= mu <= 1.
Proof. exact adist_cosine. Qed.
Print Assumptions C14_angle_distribution.
(** in binary64 the clamp gives a cosine in [-1,1] or NaN, for all libm implementations *)
Theorem C14_binary64_partial : forall lm ds mu ds',
  al_sample (@isotropic float (NumF lm)) ds = Ok (mu, ds') \/ (exists t, al_sample (@angle_table float (NumF lm) t) ds = Ok (mu, ds')) \/
  (exists b, al_sample (@angle_bins float (NumF lm) b) ds = Ok (mu, ds')) ->
  PrimFloat.is_nan mu = true \/ (PrimFloat.leb (-1)%float mu = true /\ PrimFloat.leb mu 1%float = true).
Proof. intros lm ds mu ds' [H|[[t H]|[b H]]]; [exact (isotropicF lm ds mu ds' H)|exact (angle_tableF lm t ds mu ds' H)|exact (angle_binsF lm b ds mu ds' H)]. Qed.
Print Assumptions C14_binary64_partial.
(** ... and NaN happens: an accepted angle table with a repeated cosine *)
Theorem C14_nan_refuted : forall lm, exists t, @make_pc float (NumF lm) nan_values nan_pdf nan_cdf LinLin = Ok t /\ @make_angle_table float (NumF lm) t = Ok t /\
  al_sample (@angle_table float (NumF lm) t) [0.375%float] = Ok (nan, []).
Proof. exact nan_cosine. Qed.
Print Assumptions C14_nan_refuted.
Example C14_nonvacuous : draws01 [1/3] /\ al_sample (@isotropic R NumR) [1/3] = Ok (2 * (1/3) - 1, []) /\ make_bins ub = Ok ub.
Proof. split; [intros x [<-|[]]; lra|]. split; [apply isotropic_value; lra|exact ub_ok]. Qed.

(** ** C15: equiprobable bins *)
Theorem C15_memory_safe_partial : forall b bounds xi, make_bins b = Ok bounds -> 0 <= xi < 1 -> exists mu : R, bins_sample bounds xi = Ok mu /\ -1 <= mu <= 1.
Proof. intros b bounds xi M. apply make_bins_spec in M as (-> & L & _). exact (bins_safe b xi L). Qed.
Print Assumptions C15_memory_safe_partial.
(** what the sampling actually computes: bin floor(33 xi), slope 32 in xi whatever the width of the bin *)
Theorem C15_sampled_value_partial : forall b bounds xi, make_bins b = Ok bounds -> 0 <= xi < 1 ->
  exists k, (0 <= k <= 32)%Z /\ IZR k <= 33 * xi < IZR k + 1 /\
    forall m, m = 32 * (xi - IZR k / 32) + getR bounds k -> bins_sample bounds xi = Ok (if Rlt_dec 1 m then 1 else if Rlt_dec m (-1) then -1 else m).
Proof.
  intros b bounds xi M X. apply make_bins_spec in M as (-> & L & _). destruct (bins_sample_form b xi L X) as (k & K1 & K2 & E). exists k.
  split; [exact K1|]. split; [exact K2|]. intros m ->. rewrite E. f_equal. set (m := 32 * _ + _). clearbody m. unfold clamp_mu. rnum.
  destruct (Rltb_spec 1 (Rabs m)) as [H|H].
  - destruct (Rltb_spec m 0); [rewrite Rabs_left in H by lra|rewrite Rabs_right in H by lra]; destruct (Rlt_dec 1 m), (Rlt_dec m (-1)); lra.
  - apply Rabs_le_between in H. destruct (Rlt_dec 1 m), (Rlt_dec m (-1)); lra.
Qed.
Print Assumptions C15_sampled_value_partial.
(** the pdf is right: 1/32 in each bin, total 1 *)
Theorem C15_pdf_partial : forall b bounds, make_bins b = Ok bounds -> strictly_increasing bounds ->
  exists f : R -> R, (forall mu, bins_pdf bounds mu = Ok (f mu)) /\
    (forall k, (0 <= k < 32)%Z -> is_RInt f (getR bounds k) (getR bounds (k + 1)) (/ 32)) /\
    (forall k mu, (0 <= k < 32)%Z -> getR bounds k < mu < getR bounds (k + 1) -> f mu = / 32 / (getR bounds (k + 1) - getR bounds k)) /\
    is_RInt f (getR bounds 0) (getR bounds 32) 1.
Proof.
  intros b bounds M S. apply make_bins_spec in M as (-> & L & _).
  set (f := fun mu => match @bins_pdf R NumR b mu with Ok p => p | _ => 0 end).
  assert (F : forall mu, bins_pdf b mu = Ok (f mu)) by (intros mu; destruct (bins_pdf_safe b mu L) as [p E]; unfold f; rewrite E; reflexivity).
  exists f. split; [exact F|]. split; [exact (bins_pdf_integral b f L S F)|]. split; [|exact (bins_pdf_total b f L S F)].
  intros k mu Hk H. pose proof (bins_pdf_value b k mu L S Hk H) as E. rewrite F in E. injection E as E. exact E.
Qed.
Print Assumptions C15_pdf_partial.
(** with 32 equal bins, xi = 0.99 selects no cosine of the last bin although floor(32 xi) = 31 *)
Theorem C15_bin_refuted : make_bins ub = Ok ub /\ exists mu, bins_sample ub (99/100) = Ok mu /\ mu = 17/25 /\ ~ (getR ub 31 <= mu <= getR ub 32).
Proof. split; [exact ub_ok|exact bins_wrong]. Qed.
Print Assumptions C15_bin_refuted.
Example C15_nonvacuous : make_bins ub = Ok ub /\ strictly_increasing ub. Proof. split; [exact ub_ok|exact ub_strict]. Qed.

(** ** C16: Legendre series *)
Theorem C16_value : forall a d, make_leg a = Ok d -> forall mu, @leg_pdf R NumR (lg_a d) mu = series 0 (1 :: a) mu.
Proof. exact make_leg_pdf. Qed.
Print Assumptions C16_value.
Theorem C16_default : forall d, make_leg0 = Ok d -> forall mu, @leg_pdf R NumR (lg_a d) mu = 1 / 2.
Proof. exact default_leg_pdf. Qed.
Print Assumptions C16_default.
Theorem C16_normalised : forall a d, make_leg a = Ok d -> is_RInt (@leg_pdf R NumR (lg_a d)) (-1) 1 1.
Proof.
  intros a d M. apply is_RInt_ext with (series 0 (1 :: a)); [intros x _; symmetry; apply make_leg_pdf, M|]. apply series_normalised.
Qed.
Print Assumptions C16_normalised.
(** the constructor accepts exactly the series that are nonnegative at -1, -0.999, ..., 1 *)
Theorem C16_accepted : forall a : list R, (exists d, make_leg a = Ok d) <-> forall k, (Z.of_nat k <= 2000)%Z -> 0 <= series 0 (1 :: a) (-1 + INR k / 1000).
Proof. exact make_leg_iff. Qed.
Print Assumptions C16_accepted.
Example C16_nonvacuous : exists d : legd R, make_leg [1/4] = Ok d. Proof. exact leg_example. Qed.

(** ** C17: a rejected moment *)
Theorem C17_refuted : forall d : legd R, lg_a d = [1 / 2] -> exists d', @set_moment R NumR d 1 2 = (d', true) /\ lg_a d' = [1 / 2; 3].
Proof. exact set_moment_refuted. Qed.
Print Assumptions C17_refuted.
(** what set_moment(l, v) does, throwing or not: moment l becomes v, the others stay *)
Theorem C17_effect_partial : forall (d : legd R) l v, l <> 0%nat -> let d' := fst (set_moment d l v) in
  nth l (lg_a d') 0 = v * (2 * INR l + 1) / 2 /\ (forall k, k <> l -> nth k (lg_a d') 0 = nth k (lg_a d) 0).
Proof. exact set_moment_effect. Qed.
Print Assumptions C17_effect_partial.
Theorem C17_moment_zero_partial : forall (d : legd R) v, set_moment d 0 v = (d, true).
Proof. exact set_moment_0. Qed.
Print Assumptions C17_moment_zero_partial.
(** when the call reports the moment as rejected: exactly when the density of the object is then negative at one of the points -1, -0.999, ..., 1 *)
Theorem C17_rejects_iff_partial : forall (d : legd R) l v d' b, l <> 0%nat -> set_moment d l v = (d', b) ->
  (b = true <-> exists k, (Z.of_nat k <= 2000)%Z /\ leg_pdf (lg_a d') (-1 + INR k / 1000) < 0).
Proof. exact set_moment_rejects. Qed.
Print Assumptions C17_rejects_iff_partial.
Example C17_nonvacuous : exists d : legd R, make_leg0 = Ok d /\ lg_a d = [1 / 2]. Proof. exact leg0_example. Qed.

(** ** C18 (angular distributions): selection of the incident energy *)
Theorem C18_angle_below : forall energy laws (a : adist R) E l, make_adist energy laws = Ok a -> (1 <= sizeZ energy)%Z -> E <= getR energy 0 -> atZ laws 0 = Ok l ->
  (forall ds, adist_sample a E ds = al_sample l ds) /\ forall mu, adist_pdf a E mu = al_pdf l mu.
Proof. intros energy laws a E l M. exact (adist_front energy laws a M E l). Qed.
Print Assumptions C18_angle_below.
Theorem C18_angle_above : forall energy laws (a : adist R) E l, make_adist energy laws = Ok a -> (1 <= sizeZ energy)%Z ->
  getR energy (sizeZ energy - 1) < E -> atZ laws (sizeZ energy - 1) = Ok l ->
  (forall ds, adist_sample a E ds = al_sample l ds) /\ forall mu, adist_pdf a E mu = al_pdf l mu.
Proof. intros energy laws a E l M. exact (adist_back energy laws a M E l). Qed.
Print Assumptions C18_angle_above.
Theorem C18_angle_between : forall energy laws (a : adist R) E k l1 l2, make_adist energy laws = Ok a ->
  (0 <= k)%Z -> (k + 1 < sizeZ energy)%Z -> getR energy k < E <= getR energy (k + 1) ->
  atZ laws k = Ok l1 -> atZ laws (k + 1) = Ok l2 -> (forall l, In l laws -> cosine_law l) ->
  let f := (E - getR energy k) / (getR energy (k + 1) - getR energy k) in
  (forall xi ds, draws01 ds -> adist_sample a E (xi :: ds) = al_sample (if Rltb f xi then l1 else l2) ds) /\
  (forall mu p1 p2, al_pdf l1 mu = Ok p1 -> al_pdf l2 mu = Ok p2 -> adist_pdf a E mu = Ok ((1 - f) * p1 + f * p2)).
Proof. intros energy laws a E k l1 l2 M. exact (adist_between energy laws a M E k l1 l2). Qed.
Print Assumptions C18_angle_between.
(** an empty distribution is accepted and cannot be sampled *)
Theorem C18_angle_empty_refuted : exists a : adist R, make_adist [] [] = Ok a /\ forall E ds, adist_sample a E ds = UB.
Proof. exact adist_empty_ub. Qed.
Print Assumptions C18_angle_empty_refuted.
Example C18_angle_nonvacuous : exists a : adist R, make_adist [1; 2; 4] [isotropic; angle_bins ub; isotropic] = Ok a /\
  forall l, In l [isotropic; angle_bins ub; isotropic] -> cosine_law l.
Proof.
  eexists. split.
  - unfold make_adist. cbn [length Nat.eqb guard bind]. replace (is_sorted [1; 2; 4]) with true; [reflexivity|]. symmetry. apply is_sorted_increasing.
    apply increasing_step. intros k H1 H2. assert (k = 0 \/ k = 1)%Z as [-> | ->] by (cbn in H2; lia); getz; cbn [seg_area]; lra.
  - intros l [<-|[<-|[<-|[]]]]; [exact isotropic_cosine|apply bins_cosine; reflexivity|exact isotropic_cosine].
Qed.
