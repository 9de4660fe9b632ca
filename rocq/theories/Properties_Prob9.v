(** * C96: the joint law of the cosine and the energy sampled by Kalbach and TabularEnergyAngle *)
From Coq Require Import Reals Lra Lia List ZArith ZifyBool ZifyNat. From Coquelicot Require Import Coquelicot.
From Verif Require Import Base NumR L_SearchR M_Interp M_PC S_PC M_OutE S_OutE S_Prob S_JointLaw L_Search L_OutE L_OutE4 L_ProbAngle L_ProbJoint3 L_ProbJoint4 L_ProbJoint5 L_ProbJoint6 L_ProbJoint7.
Import ListNotations.
Local Open Scope R_scope.

(** Kalbach: at any incident energy the sampled pair follows the mixture of the two bracketing tables, each with density p(E') times the Kalbach-Mann formula with the parameters
    A(E'), R(E') interpolated at the sampled energy E', and stretched to the interpolated range *)
Theorem C96_kalbach_partial : forall energy tables d E l f t1 t2 p1 p2 A1 A2 R1 R2, make_kal energy tables = Ok d -> (forall t, In t tables -> good_kt t) -> bracket energy E l f -> atZ tables l = Ok t1 -> atZ tables (l + 1) = Ok t2 ->
  (forall h, pc_pdf (mkPC (k_energy t1) (k_pdf t1) (k_cdf t1) (k_interp t1)) h = Ok (p1 h)) -> (forall h, pc_pdf (mkPC (k_energy t2) (k_pdf t2) (k_cdf t2) (k_interp t2)) h = Ok (p2 h)) ->
  (forall h, k_Aof t1 h = Ok (A1 h)) -> (forall h, k_Rof t1 h = Ok (R1 h)) -> (forall h, k_Aof t2 h = Ok (A2 h)) -> (forall h, k_Rof t2 h = Ok (R2 h)) ->
  let a1 := first_of (k_energy t1) in let a2 := first_of (k_energy t2) in let b1 := last_of (k_energy t1) in let b2 := last_of (k_energy t2) in let lo := mix f a1 a2 in let hi := mix f b1 b2 in
  joint_law (kal_sample d E) lo hi (fun mu x => (1 - f) * stretched_pair (fun mu h => p1 h * kalbach_density (A1 h) (R1 h) mu) a1 b1 lo hi mu x + f * stretched_pair (fun mu h => p2 h * kalbach_density (A2 h) (R2 h) mu) a2 b2 lo hi mu x).
Proof. exact kal_joint. Qed.
Print Assumptions C96_kalbach_partial.
(** TabularEnergyAngle: the same, with the density of the angular table used at the sampled energy: T1 and T2 are any functions giving, between the tabulated points, the table described by angular_table *)
Theorem C96_energy_angle_partial : forall energy tables d E l f t1 t2 p1 p2 T1 T2 q1 q2, make_tea energy tables = Ok d -> (forall t, In t tables -> valid_eat t /\ cosines_in t) -> bracket energy E l f -> atZ tables l = Ok t1 -> atZ tables (l + 1) = Ok t2 ->
  (forall h, pc_pdf (mkPC (ea_energy t1) (ea_pdf t1) (ea_cdf t1) (ea_interp t1)) h = Ok (p1 h)) -> (forall h, pc_pdf (mkPC (ea_energy t2) (ea_pdf t2) (ea_cdf t2) (ea_interp t2)) h = Ok (p2 h)) ->
  (forall h, In (T1 h) (ea_angles t1)) -> (forall h, In (T2 h) (ea_angles t2)) ->
  (forall k h, between (ea_energy t1) k h -> angular_table t1 h (T1 h)) -> (forall k h, between (ea_energy t2) k h -> angular_table t2 h (T2 h)) ->
  (forall mu h, pc_pdf (T1 h) mu = Ok (q1 mu h)) -> (forall mu h, pc_pdf (T2 h) mu = Ok (q2 mu h)) ->
  let a1 := first_of (ea_energy t1) in let a2 := first_of (ea_energy t2) in let b1 := last_of (ea_energy t1) in let b2 := last_of (ea_energy t2) in let lo := mix f a1 a2 in let hi := mix f b1 b2 in
  joint_law (tea_sample d E) lo hi (fun mu x => (1 - f) * stretched_pair (fun mu h => p1 h * q1 mu h) a1 b1 lo hi mu x + f * stretched_pair (fun mu h => p2 h * q2 mu h) a2 b2 lo hi mu x).
Proof. exact tea_joint. Qed.
Print Assumptions C96_energy_angle_partial.
(** for histogram tables over one range of energies pdf returns that density, everywhere between the tabulated points *)
Theorem C96_kalbach_pdf_partial : forall energy tables d E l f t1 t2 p1 p2 A1 A2 R1 R2 a b k1 k2 mu x, make_kal energy tables = Ok d -> (forall t, In t tables -> good_kt t) -> bracket energy E l f -> atZ tables l = Ok t1 -> atZ tables (l + 1) = Ok t2 ->
  (forall h, pc_pdf (mkPC (k_energy t1) (k_pdf t1) (k_cdf t1) (k_interp t1)) h = Ok (p1 h)) -> (forall h, pc_pdf (mkPC (k_energy t2) (k_pdf t2) (k_cdf t2) (k_interp t2)) h = Ok (p2 h)) ->
  (forall h, k_Aof t1 h = Ok (A1 h)) -> (forall h, k_Rof t1 h = Ok (R1 h)) -> (forall h, k_Aof t2 h = Ok (A2 h)) -> (forall h, k_Rof t2 h = Ok (R2 h)) ->
  k_interp t1 = Histogram -> k_interp t2 = Histogram -> first_of (k_energy t1) = a -> first_of (k_energy t2) = a -> last_of (k_energy t1) = b -> last_of (k_energy t2) = b -> between (k_energy t1) k1 x -> between (k_energy t2) k2 x ->
  kal_pdf d E mu x = Ok ((1 - f) * stretched_pair (fun mu h => p1 h * kalbach_density (A1 h) (R1 h) mu) a b a b mu x + f * stretched_pair (fun mu h => p2 h * kalbach_density (A2 h) (R2 h) mu) a b a b mu x).
Proof. exact kal_hist_pdf. Qed.
Print Assumptions C96_kalbach_pdf_partial.
Theorem C96_energy_angle_pdf_partial : forall energy tables d E l f t1 t2 p1 p2 T1 T2 q1 q2 a b k1 k2 mu x, make_tea energy tables = Ok d -> (forall t, In t tables -> valid_eat t /\ cosines_in t) -> bracket energy E l f -> atZ tables l = Ok t1 -> atZ tables (l + 1) = Ok t2 ->
  (forall h, pc_pdf (mkPC (ea_energy t1) (ea_pdf t1) (ea_cdf t1) (ea_interp t1)) h = Ok (p1 h)) -> (forall h, pc_pdf (mkPC (ea_energy t2) (ea_pdf t2) (ea_cdf t2) (ea_interp t2)) h = Ok (p2 h)) ->
  (forall k h, between (ea_energy t1) k h -> angular_table t1 h (T1 h)) -> (forall k h, between (ea_energy t2) k h -> angular_table t2 h (T2 h)) ->
  (forall mu h, pc_pdf (T1 h) mu = Ok (q1 mu h)) -> (forall mu h, pc_pdf (T2 h) mu = Ok (q2 mu h)) ->
  ea_interp t1 = Histogram -> ea_interp t2 = Histogram -> first_of (ea_energy t1) = a -> first_of (ea_energy t2) = a -> last_of (ea_energy t1) = b -> last_of (ea_energy t2) = b -> between (ea_energy t1) k1 x -> between (ea_energy t2) k2 x ->
  tea_pdf d E mu x = Ok ((1 - f) * stretched_pair (fun mu h => p1 h * q1 mu h) a b a b mu x + f * stretched_pair (fun mu h => p2 h * q2 mu h) a b a b mu x).
Proof. exact tea_hist_pdf. Qed.
Print Assumptions C96_energy_angle_pdf_partial.
(** otherwise pdf is not the density of what is sampled. Linear Kalbach tables: the sampler interpolates the parameters, pdf interpolates the densities *)
Theorem C96_kalbach_linear_refuted : exists d rep, make_kal [1; 2] [ktA; ktA] = Ok d /\ good_kt ktA /\ (forall mu x, 0 < x < 1 -> kal_pdf d (3 / 2) mu x = Ok (rep mu x)) /\ ~ joint_law (kal_sample d (3 / 2)) 0 1 rep.
Proof. destruct kal_linear_refuted as (d & rep & H1 & H2 & H3). exists d, rep. exact (conj H1 (conj ktA_good (conj H2 H3))). Qed.
Print Assumptions C96_kalbach_linear_refuted.
(** tables over [0,1] and [0,3]: pdf lacks the factor of the stretch, and adds up to 4/3 *)
Theorem C96_kalbach_stretch_refuted : exists d rep, make_kal [1; 2] [kuni 1; kuni 3] = Ok d /\ good_kt (kuni 1) /\ good_kt (kuni 3) /\ (forall mu x, 0 < x < 2 -> kal_pdf d (3 / 2) mu x = Ok (rep mu x)) /\ ~ joint_law (kal_sample d (3 / 2)) 0 2 rep.
Proof. destruct kal_stretch_refuted as (d & rep & H1 & H2 & H3). exists d, rep. exact (conj H1 (conj (kuni_good 1 Rlt_0_1) (conj (kuni_good 3 ltac:(lra)) (conj H2 H3)))). Qed.
Print Assumptions C96_kalbach_stretch_refuted.
(** linear energy-angle tables: where the tabulated density is constant only the angular table of the lower point is ever used, while pdf interpolates the two. Every sampled cosine is
    negative, and pdf is positive at the positive cosines *)
Theorem C96_energy_angle_flat_refuted : exists d, make_tea [1; 2] [eatL; eatL] = Ok d /\ valid_eat eatL /\ law (tea_sample d (3 / 2)) (fun v => fst v <= 0 /\ snd v <= 1) 1 /\ forall mu x, 0 < mu < 1 -> 0 < x < 1 -> tea_pdf d (3 / 2) mu x = Ok x.
Proof. destruct tea_flat_refuted as (d & H1 & H2 & H3). exists d. exact (conj H1 (conj (proj1 eatL_valid) (conj H2 H3))). Qed.
Print Assumptions C96_energy_angle_flat_refuted.

(** the hypotheses are met by a table with varying parameters ... *)
Definition kt_hist_ex : kt R := mkKT [0; 1/2; 1] [1/2; 3/2; 0] [0; 1/4; 1] [0; 1/2; 1] [1; 1; 2] Histogram.
Example C96_kalbach_nonvacuous : good_kt kt_hist_ex /\ make_kal [1; 2] [kt_hist_ex; ktA] = Ok (mkKal [1; 2] [kt_hist_ex; ktA]) /\ bracket [1; 2] (3 / 2) 0 (1 / 2) /\
  (exists p, forall h, pc_pdf (mkPC (k_energy kt_hist_ex) (k_pdf kt_hist_ex) (k_cdf kt_hist_ex) (k_interp kt_hist_ex)) h = Ok (p h)) /\ (exists A, forall h, k_Aof kt_hist_ex h = Ok (A h)) /\ (exists A, forall h, k_Aof ktA h = Ok (A h)) /\ between (k_energy kt_hist_ex) 1 (3 / 4).
Proof.
  assert (V : valid_kt kt_hist_ex) by (split; [exact step2_valid|reflexivity|reflexivity]).
  split; [split; [exact V|split; [intros a [<-|[<-|[<-|[]]]]; lra|intros r [<-|[<-|[<-|[]]]]; lra]]|]. split; [apply make_kal_ok; [exact inc12|reflexivity]|]. split; [exact bracket12|].
  split; [eexists; intros h; apply (tdens_ok (kt_pc kt_hist_ex) h (vk_table _ V))|]. split; [eexists; intros h; apply (par_ok kt_hist_ex (k_A kt_hist_ex) h V eq_refl)|]. split; [eexists; intros h; apply (par_ok ktA (k_A ktA) h (proj1 ktA_good) eq_refl)|].
  split; [lia|]. split; [cbn; lia|]. cbn [kt_hist_ex k_energy]. getz. lra.
Qed.
(** ... and by an energy-angle table with density 2 E': backward below the median energy, forward above *)
Definition eat_ramp : eat R := mkEAT [0; 1] [0; 2] [0; 1] [back_pc; uni 1] LinLin.
Example C96_energy_angle_nonvacuous : valid_eat eat_ramp /\ cosines_in eat_ramp /\ exists T, (forall h, In (T h) (ea_angles eat_ramp)) /\ (forall k h, between (ea_energy eat_ramp) k h -> angular_table eat_ramp h (T h)) /\ T (1 / 2) = back_pc /\ T (3 / 4) = uni 1.
Proof.
  split; [|split; [exact (proj2 eatL_valid)|]].
  - split; [|reflexivity|exact (ve_angles _ (proj1 eatL_valid))]. cbn [eat_ramp ea_energy ea_pdf ea_cdf ea_interp]. split; try reflexivity.
    + right; reflexivity.
    + cbn. lia.
    + exact (vt_values _ _ _ _ flat_table).
    + intros p [<-|[<-|[]]]; lra.
    + intros k H1 H2. assert (k = 0)%Z as -> by (cbn in H2; lia). getz. cbn [seg_area]. lra.
  - exists (fun h => if Rlt_dec (h * h) (1 / 2) then back_pc else uni 1). split; [intros h; destruct (Rlt_dec _ _); [left|right; left]; reflexivity|]. split; [|split; destruct (Rlt_dec _ _); try reflexivity; lra].
    intros k h B. exists k. split; [exact B|]. destruct B as (B1 & B2 & _). assert (k = 0)%Z as -> by (cbn in B2; lia).
    assert (NF : ~ flat eat_ramp 0) by (intros [Q|Q]; [discriminate|cbn [eat_ramp ea_pdf] in Q; revert Q; getz; lra]).
    assert (H : lower_half eat_ramp 0 h <-> h * h < 1 / 2).
    { unfold lower_half, mix. cbv zeta. cbn [eat_ramp ea_energy ea_pdf]. getz. replace ((h - 0) / (1 - 0)) with h by field. split; intros; lra. }
    destruct (Rlt_dec (h * h) (1 / 2)) as [Q|Q]; [left|right]; (split; [|reflexivity]).
    + right. apply H. exact Q.
    + intros [X|X]; [exact (NF X)|apply Q, H, X].
Qed.
