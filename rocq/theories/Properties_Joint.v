(** * Property C83 (joint densities of energy-angle tables) and additions to C21 and C22 *)
From Coquelicot Require Import Coquelicot.
From Verif Require Import Base NumR L_SearchR M_Interp M_PC S_PC M_OutE S_OutE L_OutE L_OutE2 L_OutE3 L_OutE4 L_OutE5 Properties_OutE M_Spectra M_Laws Properties_Spectra.
From Coq Require Import Reals List Lra Lia. Import ListNotations.
Local Open Scope R_scope.

(** ** C21, C22: what is sampled from and what is accepted *)
(** xi selects the CDF bin [l, l+1] and thereby the angular table: that of the lower point when the density is constant on the bin or xi is in
    its lower half, else that of the upper point ([nearest_point]) *)
Theorem C21_angular_table_partial : forall t xi x2 ds, valid_eat t -> 0 < xi < 1 -> 0 <= x2 < 1 ->
  exists l a k m e, (0 <= l)%Z /\ (l + 1 < sizeZ (ea_energy t))%Z /\ getR (ea_cdf t) l < xi <= getR (ea_cdf t) (l + 1) /\ nearest_point t l xi k /\
    atZ (ea_angles t) k = Ok a /\ pc_sample a x2 = Ok m /\
    ea_sample t (xi :: x2 :: ds) = Ok ((@clamp_mu R NumR m, e), ds) /\ first_of (ea_energy t) <= e <= last_of (ea_energy t) /\
    is_RInt (L_PCR.dens (ea_energy t) (ea_pdf t) (ea_cdf t) (ea_interp t)) (first_of (ea_energy t)) e xi.
Proof. exact ea_sample_which. Qed.
Print Assumptions C21_angular_table_partial.
(** exactly these tables are accepted; the last CDF entry is then set to 1 *)
Theorem C21_accepted_partial : forall energy pdf cdf angles i t, (1 <= sizeZ cdf)%Z ->
  make_eat energy pdf cdf angles i = Ok t <-> table_checks energy pdf cdf i /\ t = mkEAT energy pdf (removelast cdf ++ [1]) angles i.
Proof. exact make_eat_iff. Qed.
Print Assumptions C21_accepted_partial.
Theorem C22_accepted : forall energy pdf cdf r a i t, (1 <= sizeZ cdf)%Z ->
  make_kt energy pdf cdf r a i = Ok t <-> table_checks energy pdf cdf i /\ sizeZ pdf = sizeZ energy /\ sizeZ cdf = sizeZ energy /\ sizeZ r = sizeZ energy /\ sizeZ a = sizeZ energy /\
    t = mkKT energy pdf (removelast cdf ++ [1]) r a i.
Proof. exact make_kt_iff. Qed.
Print Assumptions C22_accepted.

(** ** C83: joint densities *)
(** inside a segment of the outgoing energy: the product of the densities at the lower point (histogram), or the linear interpolation of the two products *)
Theorem C83_table_value_partial : forall t mu k E, valid_eat t -> (0 <= k)%Z -> (k + 1 < sizeZ (ea_energy t))%Z -> getR (ea_energy t) k < E < getR (ea_energy t) (k + 1) ->
  exists a1 a2 p1 p2, atZ (ea_angles t) k = Ok a1 /\ atZ (ea_angles t) (k + 1) = Ok a2 /\ pc_pdf a1 mu = Ok p1 /\ pc_pdf a2 mu = Ok p2 /\
  ea_pdf2 t mu E = Ok (match ea_interp t with Histogram => p1 * getR (ea_pdf t) k
    | _ => mix ((E - getR (ea_energy t) k) / (getR (ea_energy t) (k + 1) - getR (ea_energy t) k)) (p1 * getR (ea_pdf t) k) (p2 * getR (ea_pdf t) (k + 1)) end).
Proof.
  intros t mu k E V H1 H2 HE. destruct (ea_angle_at t k V ltac:(lia)) as [E1 V1]. destruct (ea_angle_at t (k + 1) V ltac:(lia)) as [E2 V2].
  exists (ea_angle t k), (ea_angle t (k + 1)), (pdf_at (ea_angle t k) mu), (pdf_at (ea_angle t (k + 1)) mu).
  split; [exact E1|]. split; [exact E2|]. split; [apply pdf_at_ok; exact V1|]. split; [apply pdf_at_ok; exact V2|]. apply ea_pdf_value; assumption.
Qed.
Print Assumptions C83_table_value_partial.
Theorem C83_kalbach_value_partial : forall t mu k E, valid_kt t -> (forall a, In a (k_A t) -> a <> 0) -> (0 <= k)%Z -> (k + 1 < sizeZ (k_energy t))%Z -> getR (k_energy t) k < E < getR (k_energy t) (k + 1) ->
  let p j := kalbach_density (getR (k_A t) j) (getR (k_R t) j) mu * getR (k_pdf t) j in
  k_pdf2 t mu E = Ok (match k_interp t with Histogram => p k | _ => mix ((E - getR (k_energy t) k) / (getR (k_energy t) (k + 1) - getR (k_energy t) k)) (p k) (p (k + 1)%Z) end).
Proof.
  intros t mu k E V HA H1 H2 HE. cbv zeta. assert (N : forall j, (0 <= j < sizeZ (k_energy t))%Z -> getR (k_A t) j <> 0) by (intros j Hj; apply HA, getR_In; rewrite (vk_A t V); lia).
  rewrite (k_pdf_value t mu k E V H1 H2 HE). rewrite !mu_p_density by (apply N; lia). reflexivity.
Qed.
Print Assumptions C83_kalbach_value_partial.
(** angle_pdf is the integral of pdf over the outgoing energy, for every cosine *)
Theorem C83_table_energy_marginal_partial : forall t mu, valid_eat t -> exists s g, ea_angle_pdf t mu = Ok s /\ is_RInt g (first_of (ea_energy t)) (last_of (ea_energy t)) s /\
  (forall E, ea_interp t = Histogram \/ E <> last_of (ea_energy t) -> ea_pdf2 t mu E = Ok (g E)).
Proof. exact ea_marginal_energy. Qed.
Print Assumptions C83_table_energy_marginal_partial.
Theorem C83_kalbach_energy_marginal_partial : forall t mu, valid_kt t -> exists s g, k_angle_pdf t mu = Ok s /\ is_RInt g (first_of (k_energy t)) (last_of (k_energy t)) s /\
  (forall E, k_interp t = Histogram \/ E <> last_of (k_energy t) -> k_pdf2 t mu E = Ok (g E)).
Proof. exact k_marginal_energy. Qed.
Print Assumptions C83_kalbach_energy_marginal_partial.
(** the integral of pdf over the cosine is the density of the outgoing energy *)
Theorem C83_table_cosine_marginal_partial : forall t k E, valid_eat t -> (forall a, In a (ea_angles t) -> first_of (pc_values a) = -1 /\ last_of (pc_values a) = 1) ->
  (0 <= k)%Z -> (k + 1 < sizeZ (ea_energy t))%Z -> getR (ea_energy t) k < E < getR (ea_energy t) (k + 1) ->
  exists g v, (forall mu, ea_pdf2 t mu E = Ok (g mu)) /\ is_RInt g (-1) 1 v /\ pc_pdf (mkPC (ea_energy t) (ea_pdf t) (ea_cdf t) (ea_interp t)) E = Ok v.
Proof. exact ea_marginal_cosine. Qed.
Print Assumptions C83_table_cosine_marginal_partial.
Theorem C83_kalbach_cosine_marginal_partial : forall t k E, valid_kt t -> (forall a, In a (k_A t) -> a <> 0) ->
  (0 <= k)%Z -> (k + 1 < sizeZ (k_energy t))%Z -> getR (k_energy t) k < E < getR (k_energy t) (k + 1) ->
  exists g v, (forall mu, k_pdf2 t mu E = Ok (g mu)) /\ is_RInt g (-1) 1 v /\ pc_pdf (mkPC (k_energy t) (k_pdf t) (k_cdf t) (k_interp t)) E = Ok v.
Proof. exact k_marginal_cosine. Qed.
Print Assumptions C83_kalbach_cosine_marginal_partial.
(** the last tabulated energy is excluded: there the linear tables read out of range (C21_pdf_last_refuted, C22_pdf_last_refuted) *)
Theorem C83_last_energy_refuted : forall t mu, valid_kt t -> strictly_increasing (k_energy t) -> k_interp t = LinLin -> k_pdf2 t mu (last_of (k_energy t)) = UB.
Proof. exact k_pdf_last_ub. Qed.
Print Assumptions C83_last_energy_refuted.
(** the angular density of the whole distribution at E is the mixture of those of the two tables around E *)
Theorem C83_energy_angle_mixture : forall energy tables d E mu, make_tea energy tables = Ok d -> (2 <= sizeZ energy)%Z -> (forall t, In t tables -> valid_eat t) ->
  exists l f t1 t2 p1 p2, bracket energy E l f /\ atZ tables l = Ok t1 /\ atZ tables (l + 1) = Ok t2 /\ ea_angle_pdf t1 mu = Ok p1 /\ ea_angle_pdf t2 mu = Ok p2 /\
    tea_angle_pdf d E mu = Ok (mix f p1 p2).
Proof.
  intros energy tables d E mu M Hn V. destruct (make_tea_inv _ _ _ M) as (I & L & ->). destruct (select_bracket energy E I Hn) as (l & f & Es & B & F). destruct B as (B1 & B2 & B3).
  destruct (limits_gen ea_energy ea_min ea_max tables l f (fun _ => eq_refl) (fun _ => eq_refl) ltac:(lia) ltac:(lia) (fun t Ht => valid_eat_n t (V t Ht))) as (t1 & t2 & E1 & E2 & _).
  destruct (C83_table_energy_marginal_partial t1 mu (V t1 (atZ_In' _ _ _ E1))) as (p1 & g1 & P1 & _). destruct (C83_table_energy_marginal_partial t2 mu (V t2 (atZ_In' _ _ _ E2))) as (p2 & g2 & P2 & _).
  exists l, f, t1, t2, p1, p2. split; [split; auto|]. repeat (split; [assumption|]). unfold tea_angle_pdf. cbn [tea_in tea_tables]. rewrite Es. cbn [bind]. rewrite E1. cbn [bind]. rewrite P1. cbn [bind]. rewrite E2. cbn [bind]. rewrite P2. cbn [bind]. unfold mix. rnum. f_equal. ring.
Qed.
Print Assumptions C83_energy_angle_mixture.
Theorem C83_kalbach_mixture : forall energy tables d E mu, make_kal energy tables = Ok d -> (2 <= sizeZ energy)%Z -> (forall t, In t tables -> valid_kt t) ->
  exists l f t1 t2 p1 p2, bracket energy E l f /\ atZ tables l = Ok t1 /\ atZ tables (l + 1) = Ok t2 /\ k_angle_pdf t1 mu = Ok p1 /\ k_angle_pdf t2 mu = Ok p2 /\
    kal_angle_pdf d E mu = Ok (mix f p1 p2).
Proof.
  intros energy tables d E mu M Hn V. destruct (make_kal_inv _ _ _ M) as (I & L & ->). destruct (select_bracket energy E I Hn) as (l & f & Es & B & F). destruct B as (B1 & B2 & B3).
  destruct (limits_gen k_energy k_min k_max tables l f (fun _ => eq_refl) (fun _ => eq_refl) ltac:(lia) ltac:(lia) (fun t Ht => valid_kt_n t (V t Ht))) as (t1 & t2 & E1 & E2 & _).
  destruct (C83_kalbach_energy_marginal_partial t1 mu (V t1 (atZ_In' _ _ _ E1))) as (p1 & g1 & P1 & _). destruct (C83_kalbach_energy_marginal_partial t2 mu (V t2 (atZ_In' _ _ _ E2))) as (p2 & g2 & P2 & _).
  exists l, f, t1, t2, p1, p2. split; [split; auto|]. repeat (split; [assumption|]). unfold kal_angle_pdf. cbn [kal_in kal_tables]. rewrite Es. cbn [bind]. rewrite E1. cbn [bind]. rewrite P1. cbn [bind]. rewrite E2. cbn [bind]. rewrite P2. cbn [bind]. unfold mix. rnum. f_equal. ring.
Qed.
Print Assumptions C83_kalbach_mixture.
Definition iso : pctable R := mkPC [-1; 1] [1/2; 1/2] [0; 1] LinLin.
Definition eat2 : eat R := mkEAT [0; 1/2; 1] [1/2; 3/2; 0] [0; 1/4; 1] [iso; iso; iso] Histogram.
Example C83_nonvacuous : valid_kt kt1 /\ (forall a, In a (k_A kt1) -> a <> 0) /\ (1 < sizeZ (k_energy kt1))%Z /\ (1 < sizeZ (ea_energy eat2))%Z /\
  valid_eat eat2 /\ (forall a, In a (ea_angles eat2) -> first_of (pc_values a) = -1 /\ last_of (pc_values a) = 1).
Proof.
  split; [exact kt1_valid|]. split; [cbn; intros a H; intuition lra|]. split; [reflexivity|]. split; [reflexivity|].
  assert (V : valid_pc iso).
  { unfold valid_pc, iso. cbn [pc_values pc_pdfs pc_cdf pc_interp]. split; try reflexivity.
    - right; reflexivity.
    - cbn. lia.
    - apply L_PCR.increasing_step. intros k H1 H2. assert (k = 0)%Z as -> by (cbn in H2; lia). getz. lra.
    - cbn. intros p H. intuition lra.
    - intros k H1 H2. assert (k = 0)%Z as -> by (cbn in H2; lia). getz. cbn [seg_area]. lra. }
  split.
  - constructor; [exact step2_valid|reflexivity|]. cbn. intros a H. intuition (subst; exact V).
  - cbn. intros a H. assert (a = iso) as -> by intuition. unfold first_of, last_of, iso. cbn [pc_values]. getz. lra.
Qed.

(** ** C63: the angular density of the N-body law is the integral of its joint density over the outgoing energies *)
Theorem C63_angular_marginal_partial : forall n Ap A Q d E mu, make_nbody n Ap A Q = Ok d -> let M := (Ap - 1) / Ap * (A / (A + 1) * E + Q) in 0 < M ->
  exists g p, ae_angle_pdf (nbody_law d) E mu = Ok (Some p) /\ (forall Eo, ae_pdf (nbody_law d) E mu Eo = Ok (Some (g Eo))) /\ is_RInt g 0 M p.
Proof.
  intros n Ap A Q d E mu Mk M HM. destruct (Properties_Spectra.C63_nbody_normalised_partial n Ap A Q d E Mk HM) as [H _].
  exists (nb_pdf d E), (1/2). split; [reflexivity|]. split; [reflexivity|exact H].
Qed.
Print Assumptions C63_angular_marginal_partial.
