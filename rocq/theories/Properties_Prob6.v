(** * C93: elastic scattering off a target at rest *)
From Coq Require Import Reals Lra Lia List ZifyBool ZifyNat. From Coquelicot Require Import Coquelicot.
From Verif Require Import Base NumR L_SearchR M_Grid M_Interp M_Tab1D M_Func M_PC M_OutE M_Kin S_Kin L_Search L_KinE S_Prob S_Replay S_ElasticLaw L_Legendre L_Prob L_ProbEv L_ProbLaw L_Replay L_ProbAngle L_ProbComp3 L_ProbElastic L_LawsEx Properties_Angle.
Import ListNotations.
Local Open Scope R_scope.

(** The energy: for cosines with density f in the centre of mass, the outgoing energy has density
    2 / ((1-alpha) E) f(1 - 2 (E - x) / ((1-alpha) E)) on [alpha E, E] *)
Theorem C93_energy_density : forall (e : elastic_obj R) E f, elastic_valid e -> 0 < E -> cosines (e_angle e E) -> replayable (e_angle e E) -> e_use_tar e = true -> e_tar e * e_kT e <= E ->
  has_density (e_angle e E) (-1) 1 f -> let alpha := kept (e_awr e) in
  has_density (energy_of (elastic_sample e E)) (alpha * E) E (fun x => 2 / ((1 - alpha) * E) * f (1 - 2 * (E - x) / ((1 - alpha) * E))).
Proof. intros e E f V HE Hc Hr Hu Ht D. exact (energy_law e E V HE Hc Hr Hu Ht f D). Qed.
Print Assumptions C93_energy_density.
(** ... uniform if the scattering is isotropic in the centre of mass *)
Theorem C93_isotropic_energy : forall (e : elastic_obj R) E, elastic_valid e -> 0 < E -> cosines (e_angle e E) -> replayable (e_angle e E) -> e_use_tar e = true -> e_tar e * e_kT e <= E ->
  has_density (e_angle e E) (-1) 1 (fun _ => 1 / 2) -> let alpha := kept (e_awr e) in has_density (energy_of (elastic_sample e E)) (alpha * E) E (fun _ => 1 / ((1 - alpha) * E)).
Proof.
  intros e E V HE Hc Hr Hu Ht D alpha. pose proof (kept_lt e V) as K. fold alpha in K. eapply density_ext; [|exact (energy_law e E V HE Hc Hr Hu Ht _ D)]. intros x _. cbv beta. fold alpha. field. split; lra.
Qed.
Print Assumptions C93_isotropic_energy.
(** The cosine in the laboratory, target heavier than the neutron: it is at most c with the probability that the cosine in
    the centre of mass is at most (c^2 - 1 + c sqrt(A^2 - 1 + c^2)) / A *)
Theorem C93_cosine_law : forall (e : elastic_obj R) E f, elastic_valid e -> 0 < E -> cosines (e_angle e E) -> replayable (e_angle e E) -> e_use_tar e = true -> e_tar e * e_kT e <= E -> let A := e_awr e in 1 < A ->
  has_density (e_angle e E) (-1) 1 f -> forall c, -1 <= c <= 1 ->
  exists q, is_RInt f (-1) ((c * c - 1 + c * sqrt (A * A - 1 + c * c)) / A) q /\ law (cosine_of (elastic_sample e E)) (fun v => v <= c) q.
Proof.
  intros e E f V HE Hc Hr Hu Ht A HA [_ D] c Hcc. destruct (D _ (cm_cosine_range e c HA Hcc)) as (q & L & I). exists q. split; [exact I|]. apply cosine_law_rest; assumption.
Qed.
Print Assumptions C93_cosine_law.
Theorem C93_isotropic_cosine : forall (e : elastic_obj R) E, elastic_valid e -> 0 < E -> cosines (e_angle e E) -> replayable (e_angle e E) -> e_use_tar e = true -> e_tar e * e_kT e <= E -> let A := e_awr e in 1 < A ->
  has_density (e_angle e E) (-1) 1 (fun _ => 1 / 2) ->
  has_density (cosine_of (elastic_sample e E)) (-1) 1 (fun c => (c + sqrt (A * A - 1 + c * c)) * (c + sqrt (A * A - 1 + c * c)) / (2 * A * sqrt (A * A - 1 + c * c))).
Proof. intros e E V HE Hc Hr Hu Ht A HA D. exact (isotropic_cosine e E V HE Hc Hr Hu Ht HA D). Qed.
Print Assumptions C93_isotropic_cosine.
(** ... and hydrogen: no backscattering, density 2 c *)
Theorem C93_hydrogen_cosine : forall (e : elastic_obj R) E, elastic_valid e -> 0 < E -> cosines (e_angle e E) -> replayable (e_angle e E) -> e_use_tar e = true -> e_tar e * e_kT e <= E -> e_awr e = 1 ->
  has_density (e_angle e E) (-1) 1 (fun _ => 1 / 2) -> (forall ds m r, Forall (fun x => 0 < x < 1) ds -> e_angle e E ds = Ok (m, r) -> -1 < m) ->
  has_density (cosine_of (elastic_sample e E)) 0 1 (fun c => 2 * c).
Proof.
  intros e E V HE Hc Hr Hu Ht HA [D1 D2] St. apply cosine_hydrogen; try assumption.
  - intros m (ds & r & O & X). exact (St ds m r O X).
  - intros c Hcc. assert (B : -1 <= 2 * (c * c) - 1 <= 1) by nra. destruct (D2 _ B) as (q & L & I). eapply law_val; [|exact L].
    pose proof (@is_RInt_unique R_CompleteNormedModule _ _ _ _ I) as X. rewrite RInt_const in X. rewrite <- X. unfold scal. cbn. unfold mult. cbn. lra.
Qed.
Print Assumptions C93_hydrogen_cosine.

(** isotropic scattering off carbon and hydrogen at rest *)
Definition el_iso (A : R) : elastic_obj R := mkElastic (adist_sample iso) A 0 true 400 (fun _ _ _ => rret (mkVec 0 0 0)).
Lemma iso_density E : has_density (adist_sample iso E) (-1) 1 (fun _ => 1 / 2) /\ cosines (adist_sample iso E) /\ replayable (adist_sample iso E) /\ forall ds m r, Forall (fun x => 0 < x < 1) ds -> adist_sample iso E ds = Ok (m, r) -> -1 < m.
Proof.
  assert (K : forall x ds, 0 < x < 1 -> adist_sample iso E (x :: ds) = Ok (2 * x - 1, ds)).
  { intros x ds Hx. unfold adist_sample, iso. cbn. unfold rbind, rlift, rret. destruct (Rle_lt_dec E (/ 100000)); [|]; rdec; cbn; unfold clamp_mu; reval; rewrite ?(proj2 (Rltb_false 1 (Rabs (2 * x - 1)))) by (apply Rabs_le; lra); reflexivity. }
  assert (K0 : forall v r, adist_sample iso E [] <> Ok (v, r)). { intros v r. unfold adist_sample, iso. cbn. unfold rbind, rlift, rret. destruct (Rle_lt_dec E (/ 100000)); rdec; cbn; discriminate. }
  assert (R1 : forall ds m r, Forall (fun x => 0 < x < 1) ds -> adist_sample iso E ds = Ok (m, r) -> exists x, 0 < x < 1 /\ m = 2 * x - 1).
  { intros ds m r O X. destruct ds as [|x ds]; [exfalso; exact (K0 _ _ X)|]. inversion O; subst. rewrite K in X by assumption. injection X as <- _. exists x. tauto. }
  split; [|split; [|split]].
  - apply (density_inverse _ (fun x => 2 * x - 1)); [lra|exact K0|intros; lra| |intros x ds Hx _; apply K, Hx|].
    + eapply iR_eq; [|apply (iR_const_on (fun _ => 1/2) (-1) 1 (1/2)); [lra|reflexivity]]; field.
    + intros x Hx. split; [lra|]. eapply iR_eq; [|apply (iR_const_on (fun _ => 1/2) (-1) (2 * x - 1) (1/2)); [lra|reflexivity]]; field.
  - intros ds m r O X. destruct (R1 ds m r O X) as (x & Hx & ->). lra.
  - apply rp_adist. apply Forall_cons; [apply rp_isotropic|apply Forall_nil].
  - intros ds m r O X. destruct (R1 ds m r O X) as (x & Hx & ->). lra.
Qed.
Example C93_carbon : has_density (energy_of (elastic_sample (el_iso 12) 2)) (121 / 169 * 2) 2 (fun _ => 169 / 96) /\ has_density (cosine_of (elastic_sample (el_iso 12) 2)) (-1) 1 (fun c => (c + sqrt (143 + c * c)) * (c + sqrt (143 + c * c)) / (24 * sqrt (143 + c * c))).
Proof.
  destruct (iso_density 2) as (D & C & Rp & _). assert (V : elastic_valid (el_iso 12)) by (unfold elastic_valid, el_iso; cbn; lra). assert (T : e_tar (el_iso 12) * e_kT (el_iso 12) <= 2) by (cbn; lra).
  pose proof (C93_isotropic_energy (el_iso 12) 2 V ltac:(lra) C Rp eq_refl T D) as H1. pose proof (C93_isotropic_cosine (el_iso 12) 2 V ltac:(lra) C Rp eq_refl T ltac:(cbn; lra) D) as H2. cbn [e_awr el_iso] in *. cbv zeta in *. split.
  - assert (K : kept 12 = 121 / 169) by (unfold kept; field). rewrite K in H1. eapply density_ext; [|exact H1]. intros x _. cbv beta. field.
  - replace (12 * 12 - 1) with 143 in H2 by ring. replace (2 * 12) with 24 in H2 by ring. exact H2.
Qed.
Example C93_hydrogen : has_density (energy_of (elastic_sample (el_iso 1) 2)) (0 * 2) 2 (fun _ => 1 / 2) /\ has_density (cosine_of (elastic_sample (el_iso 1) 2)) 0 1 (fun c => 2 * c).
Proof.
  destruct (iso_density 2) as (D & C & Rp & St). assert (V : elastic_valid (el_iso 1)) by (unfold elastic_valid, el_iso; cbn; lra). assert (T : e_tar (el_iso 1) * e_kT (el_iso 1) <= 2) by (cbn; lra). split.
  - pose proof (C93_isotropic_energy (el_iso 1) 2 V ltac:(lra) C Rp eq_refl T D) as H1. cbn [e_awr el_iso] in *. cbv zeta in *. assert (K : kept 1 = 0) by (unfold kept; field). rewrite K in H1. eapply density_ext; [|exact H1]. intros x _. cbv beta. field.
  - exact (C93_hydrogen_cosine (el_iso 1) 2 V ltac:(lra) C Rp eq_refl T eq_refl D St).
Qed.
