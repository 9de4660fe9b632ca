(** * C40, C41, C42, C43, C58, C59: directions, frames, elastic scattering *)
From Coquelicot Require Import Coquelicot.
From Verif Require Import NumF Base NumR M_Kin S_Kin L_Kin L_Kin2 L_Kin3 L_Kin4 L_KinE L_KinF M_Spectra M_Laws.
From Coq Require Import Reals List.
Import ListNotations.
Local Open Scope R_scope.

(** ** C40 *)
(** CM -> lab adds the velocity of the centre of mass, [sqrt Ein / (A+1)] along the incident direction: the
    longitudinal speed is shifted, the transverse one unchanged; the cosine is one and the energy nonnegative. *)
Theorem C40_cm_to_lab_adds_cm_velocity : forall Ein A mu Eout mul El,
  0 < A -> 0 <= Ein -> 0 <= Eout -> -1 <= mu <= 1 -> cm_to_lab Ein A mu Eout = (mul, El) ->
  0 <= El /\
  (0 < El -> sqrt El * mul = sqrt Eout * mu + sqrt Ein / (A + 1) /\
             El * (1 - mul * mul) = Eout * (1 - mu * mu) /\ -1 <= mul <= 1).
Proof. exact cm_to_lab_spec. Qed.
Print Assumptions C40_cm_to_lab_adds_cm_velocity.

Theorem C40_lab_to_cm_subtracts_cm_velocity : forall Ein A mu Eout muc Ec,
  0 < A -> 0 <= Ein -> 0 < Eout -> -1 <= mu <= 1 -> lab_to_cm Ein A mu Eout = (muc, Ec) ->
  0 <= Ec /\
  (0 < Ec -> sqrt Ec * muc = sqrt Eout * mu - sqrt Ein / (A + 1) /\
             Ec * (1 - muc * muc) = Eout * (1 - mu * mu) /\ -1 <= muc <= 1).
Proof. exact lab_to_cm_spec. Qed.
Print Assumptions C40_lab_to_cm_subtracts_cm_velocity.

Theorem C40_cm_lab_cm_round_trip : forall Ein A mu Eout mul El,
  0 < A -> 0 <= Ein -> 0 < Eout -> cm_to_lab Ein A mu Eout = (mul, El) -> 0 < El ->
  lab_to_cm Ein A mul El = (mu, Eout).
Proof. exact cm_lab_cm. Qed.
Print Assumptions C40_cm_lab_cm_round_trip.

Theorem C40_lab_cm_lab_round_trip : forall Ein A mu Eout muc Ec,
  0 < A -> 0 <= Ein -> 0 < Eout -> lab_to_cm Ein A mu Eout = (muc, Ec) -> 0 < Ec ->
  cm_to_lab Ein A muc Ec = (mu, Eout).
Proof. exact lab_cm_lab. Qed.
Print Assumptions C40_lab_cm_lab_round_trip.

(** Ein = 4, A = 1, mu = 0, Eout = 1: the lab energy is 2, hypotheses are met. *)
Example C40_nonvacuous : exists mul, cm_to_lab 4 1 0 1 = (mul, 2) /\ 0 < 2.
Proof.
  destruct (cm_to_lab 4 1 0 1) as [m e] eqn:E. exists m. split; [|lra]. f_equal.
  apply cm_to_lab_eq in E; [|lra|lra|lra]. destruct E as [E _]. rewrite E. field.
Qed.

(** ** C41 *)
Theorem C41_rotation : forall (u : vec R) mu phi,
  norm2 u = 1 -> -1 <= mu <= 1 -> norm2 (rotate u mu phi) = 1 /\ dot u (rotate u mu phi) = mu.
Proof.
  intros u mu phi Hu Hm. destruct (rotate_general u mu phi Hu) as [H1 H2]. rewrite clampR in H2 by lra. split; assumption.
Qed.
Print Assumptions C41_rotation.
Example C41_nonvacuous : norm2 (mkVec (3/5) 0 (4/5)) = 1 /\ norm2 (mkVec 0 0 1) = 1.
Proof. unfold norm2; cbn; split; lra. Qed.

(** ** C42 *)
(** every sample of an [Elastic] with the target at rest (E at or above the threshold, any random numbers) *)
Theorem C42_target_at_rest_partial : forall (e : elastic_obj R) E ds mu Eo ds',
  elastic_valid e -> 0 < E -> cosine_sampler (e_angle e) -> e_use_tar e = true -> e_tar e * e_kT e <= E ->
  elastic_sample e E ds = Ok ((mu, Eo), ds') ->
  let A := e_awr e in
  exists m, -1 <= m <= 1 /\ Eo = E * (1 + 2 * A * m + A * A) / ((1 + A) * (1 + A)) /\
    ((A - 1) / (A + 1)) * ((A - 1) / (A + 1)) * E <= Eo <= E /\
    (0 < 1 + 2 * A * m + A * A -> mu * sqrt (1 + 2 * A * m + A * A) = 1 + A * m /\ -1 <= mu <= 1).
Proof. exact elastic_sample_tar. Qed.
Print Assumptions C42_target_at_rest_partial.

(** with any target velocity: energy and momentum are conserved and the CM cosine is the sampled one *)
Theorem C42_moving_target_conserves : forall (e : elastic_obj R) E ds mu Eo ds',
  elastic_valid e -> 0 < E -> cosine_sampler (e_angle e) ->
  elastic_sample e E ds = Ok ((mu, Eo), ds') ->
  exists vt m, -1 <= m <= 1 /\
    (vt <> mkVec 0 0 (sqrt E) ->
     exists vout, elastic_collision (e_awr e) (mkVec 0 0 (sqrt E)) vt vout m /\
       Eo = norm2 vout /\ 0 <= Eo /\ (0 < Eo -> mu * sqrt Eo = vz vout /\ -1 <= mu <= 1)).
Proof. exact elastic_sample_any. Qed.
Print Assumptions C42_moving_target_conserves.

(** binary64: exact backscatter off an equal mass gives a NaN cosine *)
Theorem C42_backscatter_refuted :
  let '(mu, E) := @elastic_out float (NumF lm_ex) 1%float 1%float (mkVec 0%float 0%float 0%float) (-1)%float 0%float in
  is_nan mu = true /\ E = 0%float.
Proof. exact elastic_backscatter_nan. Qed.
Print Assumptions C42_backscatter_refuted.
Example C42_nonvacuous : elastic_valid some_elastic /\ cosine_sampler (e_angle some_elastic) /\
  e_use_tar some_elastic = true /\ e_tar some_elastic * e_kT some_elastic <= 500 /\
  exists r, elastic_sample some_elastic 500 [1/2] = Ok r.
Proof.
  split; [exact some_elastic_valid|]. split; [intros E ds m ds' H; cbn in H; injection H as <- _; lra|].
  split; [reflexivity|]. split; [cbn; lra|].
  unfold elastic_sample. cbn [e_use_tar e_tar e_kT some_elastic e_angle e_awr e_brd]. rnum. rdec. cbn [andb]. eexists. reflexivity.
Qed.

(** ** C43 *)
Theorem C43_constructor_validates : forall brd ang awr temp u tar,
  (forall e, @make_elastic R NumR brd ang awr temp u tar = Ok e -> elastic_valid e) /\
  ((exists e, make_elastic brd ang awr temp u tar = Ok e) <-> (0 < awr /\ 0 <= temp /\ 0 <= tar /\ brd <> None)) /\
  (make_elastic brd ang awr temp u tar = Throw <-> ~ (0 < awr /\ 0 <= temp /\ 0 <= tar /\ brd <> None)).
Proof. exact make_elastic_spec. Qed.
Print Assumptions C43_constructor_validates.

(** any history of setter calls with nonnegative temperatures and thresholds keeps the object valid *)
Theorem C43_setter_histories_partial : forall l e, elastic_valid e -> Forall op_ok l -> elastic_valid (run_ops e l).
Proof. exact run_ops_valid. Qed.
Print Assumptions C43_setter_histories_partial.
(** a throwing setter other than set_tar_threshold leaves the object as it was *)
Theorem C43_throwing_setter_unchanged_partial : forall e o,
  (forall t, o <> OpTar t) -> snd (run_op e o) = true -> fst (run_op e o) = e.
Proof. exact run_op_throw_unchanged. Qed.
Print Assumptions C43_throwing_setter_unchanged_partial.
(** which setters report an error, and when: a null broadener, a negative threshold, and nothing else *)
Theorem C43_setters_report_iff : forall e o,
  snd (run_op e o) = true <-> match o with OpBrd None => True | OpTar t => t < 0 | _ => False end.
Proof.
  intros e [[b|]|t|u|t]; cbn [run_op set_brd set_temperature set_use_tar set_tar_threshold snd]; try (split; [discriminate|tauto]); try tauto.
  change (Rltb t 0 = true <-> t < 0). apply Rltb_true.
Qed.
Print Assumptions C43_setters_report_iff.
(** set_temperature accepts every negative temperature silently *)
Theorem C43_set_temperature_refuted : forall e t, t < 0 ->
  snd (run_op e (OpTemp t)) = false /\ ~ elastic_valid (fst (run_op e (OpTemp t))).
Proof. exact set_temperature_wrong. Qed.
Print Assumptions C43_set_temperature_refuted.
(** set_tar_threshold throws on a negative threshold but has stored it *)
Theorem C43_set_tar_threshold_refuted : forall e t, t < 0 ->
  snd (run_op e (OpTar t)) = true /\ e_tar (fst (run_op e (OpTar t))) = t /\ ~ elastic_valid (fst (run_op e (OpTar t))).
Proof. exact set_tar_wrong. Qed.
Print Assumptions C43_set_tar_threshold_refuted.
Example C43_nonvacuous : elastic_valid some_elastic /\ Forall op_ok [OpTemp 300; OpTar 500; OpUseTar false; OpBrd None].
Proof. split; [exact some_elastic_valid|]. repeat constructor; cbn; lra. Qed.

(** ** C58: lab angle to CM angles *)
(** [lab_cos g w] is the lab cosine of a two-body event with CM cosine [w]; the code returns all CM cosines whose lab
    cosine is [mu] or [-mu]. *)
Theorem C58_angles_solve_up_to_sign_partial : forall Ein A Q mu,
  let g := cm_gamma Ein A Q in
  mu <> 0 -> g * g * (1 - mu * mu) < 1 -> g * g * (1 - mu * mu) <> mu * mu ->
  exists a1 a2, lab_to_cm_angle Ein A Q mu = (Some a1, Some a2) /\
    forall w, 0 < 1 + 2 * g * w + g * g -> ((w = a1 \/ w = a2) <-> (lab_cos g w = mu \/ lab_cos g w = - mu)).
Proof.
  intros Ein A Q mu g H1 H2 H3. destruct (angle_two_roots Ein A Q mu H1 H2 H3) as (a1 & a2 & E & H).
  exists a1, a2. split; [exact E|]. intros w Hw. rewrite H. apply lab_cos_root. exact Hw.
Qed.
Print Assumptions C58_angles_solve_up_to_sign_partial.
(** beyond the maximum lab angle nothing is returned, and nothing exists *)
Theorem C58_unreachable_angles : forall Ein A Q mu,
  let g := cm_gamma Ein A Q in
  mu <> 0 -> 1 < g * g * (1 - mu * mu) ->
  lab_to_cm_angle Ein A Q mu = (None, None) /\ forall w, 0 < 1 + 2 * g * w + g * g -> lab_cos g w <> mu.
Proof.
  intros Ein A Q mu g H1 H2. destruct (angle_no_root Ein A Q mu H1 H2) as [E H]. split; [exact E|].
  intros w Hw Hc. apply (H w). apply (lab_cos_root g w Hw mu). left; exact Hc.
Qed.
Print Assumptions C58_unreachable_angles.
(** at the maximum lab angle exactly one cosine is returned, the only one there is *)
Theorem C58_maximum_angle : forall Ein A Q mu,
  let g := cm_gamma Ein A Q in
  mu <> 0 -> g * g * (1 - mu * mu) = 1 ->
  exists a1, lab_to_cm_angle Ein A Q mu = (Some a1, None) /\
    forall w, 0 < 1 + 2 * g * w + g * g -> (w = a1 <-> (lab_cos g w = mu \/ lab_cos g w = - mu)).
Proof.
  intros Ein A Q mu g H1 H2. destruct (angle_one_root Ein A Q mu H1 H2) as (a1 & E & H).
  exists a1. split; [exact E|]. intros w Hw. rewrite H. apply lab_cos_root. exact Hw.
Qed.
Print Assumptions C58_maximum_angle.
Example C58_maximum_angle_applies : exists Ein A Q mu, mu <> 0 /\ cm_gamma Ein A Q * cm_gamma Ein A Q * (1 - mu * mu) = 1.
Proof. exact angle_one_root_applies. Qed.
(** for a target of mass 2, the second CM cosine returned for lab cosine 1/2 has lab cosine -1/2 *)
Theorem C58_wrong_root_refuted : exists w1 w2, lab_to_cm_angle 1 2 0 (1/2) = (Some w1, Some w2) /\
  -1 <= w2 <= 1 /\ lab_cos (cm_gamma 1 2 0) w2 = - (1/2).
Proof. exact angle_wrong_root. Qed.
Print Assumptions C58_wrong_root_refuted.
(** binary64: for a target of mass 1/2 and lab cosine 0 the code returns the "cosine" -2 *)
Theorem C58_not_a_cosine_refuted : forall lm,
  @lab_to_cm_angle float (NumF lm) 1%float 0.5%float 0%float 0%float = (Some (-2)%float, None).
Proof. exact angle_mu0_float. Qed.
Print Assumptions C58_not_a_cosine_refuted.
Example C58_nonvacuous : (1/2 <> 0) /\ cm_gamma 1 2 0 * cm_gamma 1 2 0 * (1 - 1/2 * (1/2)) < 1 /\
  cm_gamma 1 2 0 * cm_gamma 1 2 0 * (1 - 1/2 * (1/2)) <> 1/2 * (1/2).
Proof. rewrite gamma_2. repeat split; lra. Qed.

(** ** C59: densities change frame by the change-of-variables Jacobian *)
(** the factor of CMDistribution::pdf is the determinant of (mu,E) -> (mu_cm,E_cm) *)
Theorem C59_jacobian_is_determinant : forall Ein A mu E,
  0 < A -> 0 <= Ein -> 0 < E -> 0 < snd (lab_to_cm Ein A mu E) ->
  exists mm me em ee,
    is_derive (fun m => fst (lab_to_cm Ein A m E)) mu mm /\ is_derive (fun e => fst (lab_to_cm Ein A mu e)) E me /\
    is_derive (fun m => snd (lab_to_cm Ein A m E)) mu em /\ is_derive (fun e => snd (lab_to_cm Ein A mu e)) E ee /\
    (forall pdf, cm_pdf pdf A Ein mu E =
       match pdf Ein (fst (lab_to_cm Ein A mu E)) (snd (lab_to_cm Ein A mu E)) with
       | Some p => Some (p * (mm * ee - me * em)) | None => None end).
Proof.
  intros Ein A mu E H1 H2 H3 H4. destruct (jacobian_det Ein A mu E H1 H2 H3 H4) as (mm & me & em & ee & D1 & D2 & D3 & D4 & J).
  exists mm, me, em, ee. repeat (split; [assumption|]). intros pdf. rewrite J. unfold cm_pdf, cm_energy.
  destruct (lab_to_cm Ein A mu E) as [m e]. reflexivity.
Qed.
Print Assumptions C59_jacobian_is_determinant.
(** the angular factor is |d mu_cm / d mu_lab| at a forward CM cosine *)
Theorem C59_angle_jacobian_partial : forall Ein A Q w,
  let g := cm_gamma Ein A Q in
  0 < 1 + 2 * g * w + g * g -> -1 < w < 1 -> 0 < g + w -> 1 + g * w <> 0 ->
  exists d, is_derive (lab_cos g) w d /\ angle_jacobian_q Ein A Q (lab_cos g w) w = / d.
Proof.
  intros Ein A Q w g H1 H2 H3 H4. eexists. split; [apply lab_cos_derive; exact H1|].
  exact (angle_jacobian_value Ein A Q w H1 H2 H3 H4).
Qed.
Print Assumptions C59_angle_jacobian_partial.
(** binary64: at lab cosine 1 the angular density is NaN even for an isotropic CM distribution *)
Theorem C59_forward_density_refuted :
  exists r, @cm_angle_pdf float (NumF lm_ex) (fun _ _ => Some 0.5%float) 2%float 0%float 1%float 1%float = Some r /\ is_nan r = true.
Proof. exact angle_pdf_forward_nan. Qed.
Print Assumptions C59_forward_density_refuted.
Example C59_nonvacuous : 0 < snd (lab_to_cm 4 1 0 2).
Proof. change (snd (lab_to_cm 4 1 0 2)) with (cm_energy 4 1 0 2). rewrite cm_energy_form by lra. rewrite !Rmult_0_r, !Rmult_0_l. lra. Qed.

(** the whole value of CMDistribution::angle_pdf: the wrapped density at the two CM cosines that map to the lab cosine mu OR to -mu,
    each divided by the derivative (with its sign) of the lab cosine *)
Theorem C59_angle_pdf_value_partial : forall f Ein A Q mu,
  let g := cm_gamma Ein A Q in
  mu <> 0 -> -1 < mu < 1 -> g * g * (1 - mu * mu) < 1 -> g * g * (1 - mu * mu) <> mu * mu -> g <> 1 ->
  exists w1 w2 d1 d2, -1 < w1 < 1 /\ -1 < w2 < 1 /\
    (forall w, 0 < 1 + 2 * g * w + g * g -> ((w = w1 \/ w = w2) <-> (lab_cos g w = mu \/ lab_cos g w = - mu))) /\
    is_derive (lab_cos g) w1 d1 /\ is_derive (lab_cos g) w2 d2 /\ d1 <> 0 /\ d2 <> 0 /\
    cm_angle_pdf f A Q Ein mu = Some (at_angle f Ein w1 / d1 + at_angle f Ein w2 / d2).
Proof. exact cm_angle_pdf_value. Qed.
Print Assumptions C59_angle_pdf_value_partial.
(** whatever distribution is wrapped, the density returned is the same at mu and at -mu *)
Theorem C59_even_refuted : forall f Ein A Q mu, @cm_angle_pdf R NumR f A Q Ein (- mu) = cm_angle_pdf f A Q Ein mu.
Proof. exact cm_angle_pdf_even. Qed.
Print Assumptions C59_even_refuted.
(** when the CM moves faster than the outgoing particle, CM cosines behind the turning point get a negative weight *)
Theorem C59_negative_weight_refuted : forall Ein A Q w, let g := cm_gamma Ein A Q in
  -1 < w -> 1 < g -> 1 + g * w < 0 -> 0 < lab_cos g w < 1 /\ @angle_jacobian_q R NumR Ein A Q (lab_cos g w) w < 0.
Proof. exact jacobian_negative. Qed.
Print Assumptions C59_negative_weight_refuted.
(** angle_jacobian(Ein, A, mu, Eout) with the lab energy: a particle that leaves at CM energy Ecm with CM cosine w has in the lab the cosine
    [lab_cos g w] and the energy Ecm (1 + 2 g w + g^2), g = sqrt Ein / ((A + 1) sqrt Ecm) being the ratio of the speeds; the value is d mu_cm / d mu there *)
Theorem C59_energy_jacobian : forall Ein A Ecm w, 0 <= Ein -> 0 < A -> 0 < Ecm ->
  let g := sqrt Ein / ((A + 1) * sqrt Ecm) in 0 < 1 + 2 * g * w + g * g -> 1 + g * w <> 0 ->
  exists d, is_derive (lab_cos g) w d /\ angle_jacobian Ein A (lab_cos g w) (Ecm * (1 + 2 * g * w + g * g)) = / d.
Proof. intros Ein A Ecm w HE HA HC g HX HW. eexists. split; [apply lab_cos_derive; exact HX|]. exact (angle_jacobian_energy Ein A Ecm w HE HA HC HX HW). Qed.
Print Assumptions C59_energy_jacobian.
(** reactions read from a file with centre-of-mass data report exactly these densities *)
Theorem C59_file_reactions : forall awr q (d : aelaw R) fa fp, (forall E mu, ae_angle_pdf d E mu = Ok (fa E mu)) -> (forall E mu Eo, ae_pdf d E mu Eo = Ok (fp E mu Eo)) ->
  forall E mu Eo, ae_angle_pdf (cm_law awr q d) E mu = Ok (cm_angle_pdf fa awr q E mu) /\ ae_pdf (cm_law awr q d) E mu Eo = Ok (cm_pdf fp awr E mu Eo).
Proof. exact cm_law_densities. Qed.
Print Assumptions C59_file_reactions.
Example C59_angle_nonvacuous : let g := cm_gamma 1 2 0 in 1/2 <> 0 /\ -1 < 1/2 < 1 /\ g * g * (1 - 1/2 * (1/2)) < 1 /\ g * g * (1 - 1/2 * (1/2)) <> 1/2 * (1/2) /\ g <> 1.
Proof. cbv zeta. rewrite gamma_2. repeat split; lra. Qed.
Example C59_negative_nonvacuous : let g := cm_gamma 1 (1/2) 0 in -1 < -(3/4) /\ 1 < g /\ 1 + g * -(3/4) < 0.
Proof.
  cbv zeta. assert (E : @cm_gamma R NumR 1 (1/2) 0 = 2); [|rewrite E; repeat split; lra].
  unfold cm_gamma. rnum. match goal with |- sqrt ?x = _ => replace x with (2 * 2) by lra end. apply sqrt_square. lra.
Qed.

(** ** C60: sampled thermal target velocities *)
Theorem C60_svt_target_velocity : forall Ein kT awr ds v ds', 0 < kT -> 0 < awr -> (forall d, In d ds -> 0 < d < 1) ->
  svt_sample Ein kT awr ds = Ok (v, ds') ->
  exists x2 mu, 0 <= x2 /\ -1 <= mu <= 1 /\ norm2 v = x2 * kT / awr /\ vz v = mu * sqrt (norm2 v).
Proof. exact svt_sample_spec. Qed.
Print Assumptions C60_svt_target_velocity.
