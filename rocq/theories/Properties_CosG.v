(** * Theorems of C108: scattering cosines of neutron laws in double precision *)
From Coq Require Import Reals Lra Lia ZArith Bool List ZifyBool ZifyNat.
From Coq Require Import Floats.
From Verif Require Import Base NumF S_PickF S_CosF S_CosG M_Interp M_Tab1D M_Grid M_Ace M_PC M_OutE M_Spectra M_Kin M_Legendre M_Laws L_PickF L_CosG L_CosE.
Import ListNotations.
Local Open Scope R_scope.

(** the five angular laws, whatever their tables hold *)
Theorem C108_isotropic : forall lm, cosines_only (@al_sample _ (@isotropic _ (NumF lm))).
Proof. exact isotropic_only. Qed.
Print Assumptions C108_isotropic.
Theorem C108_angle_table : forall lm t, cosines_only (@al_sample _ (@angle_table _ (NumF lm) t)).
Proof. exact table_only. Qed.
Print Assumptions C108_angle_table.
Theorem C108_angle_bins : forall lm b, cosines_only (@al_sample _ (@angle_bins _ (NumF lm) b)).
Proof. exact bins_only. Qed.
Print Assumptions C108_angle_bins.
Theorem C108_legendre : forall lm d, cosines_only (@leg_sample _ (NumF lm) d).
Proof. exact legendre_only. Qed.
Print Assumptions C108_legendre.
(** an angular distribution over any such laws, at every energy *)
Theorem C108_angle_distribution : forall lm a E, (forall l, In l (ad_laws a) -> cosines_only (al_sample l)) -> cosines_only (@adist_sample _ (NumF lm) a E).
Proof. exact adist_only. Qed.
Print Assumptions C108_angle_distribution.
(** the joint angle-energy laws *)
Theorem C108_uncorrelated : forall lm d E, (forall l, In l (ad_laws (uc_angle d)) -> cosines_only (al_sample l)) -> pairs_only (@uc_sample _ (NumF lm) d E).
Proof. exact uc_only. Qed.
Print Assumptions C108_uncorrelated.
Theorem C108_tabular_energy_angle : forall lm d E, pairs_only (@tea_sample _ (NumF lm) d E).
Proof. exact tea_only. Qed.
Print Assumptions C108_tabular_energy_angle.
Theorem C108_kalbach : forall lm d E, pairs_only (@kal_sample _ (NumF lm) d E).
Proof. exact kal_only. Qed.
Print Assumptions C108_kalbach.
Theorem C108_nbody : forall lm d E, pairs_only (@nb_sample _ (NumF lm) d E).
Proof. exact nb_only. Qed.
Print Assumptions C108_nbody.
Theorem C108_mixture : forall lm m E, (forall d, In d (md_dists m) -> pairs_only (ae_sample d E)) -> pairs_only (@md_sample _ (NumF lm) m E).
Proof. exact md_only. Qed.
Print Assumptions C108_mixture.
(** the law of a reaction given in the laboratory frame, as it is read from any file, at every energy *)
Theorem C108_reaction_law : forall lm fuel a indx q awr d E, @load_neutron_fuel _ (NumF lm) fuel a indx q awr false = Ok d -> pairs_only (ae_sample d E).
Proof. exact load_only. Qed.
Print Assumptions C108_reaction_law.
(** the angular distribution of elastic scattering (in the centre of mass), as it is read from any file *)
Theorem C108_elastic_law : forall lm a d E, @load_elastic_angle _ (NumF lm) a = Ok d -> cosines_only (@adist_sample _ (NumF lm) d E).
Proof. exact elastic_only. Qed.
Print Assumptions C108_elastic_law.
(** elastic scattering returns a laboratory cosine in [-1,1]: every incident energy, mass, angular law, thermal-motion model and draw for which the outgoing energy is a finite double of at least 2^-960 MeV *)
Theorem C108_elastic : forall lm e E_in ds mu Eo rest, @elastic_sample _ (NumF lm) e E_in ds = Ok ((mu, Eo), rest) -> fin Eo -> / 2 ^ 960 <= BR Eo -> cosine mu.
Proof. exact elastic_sample_cos. Qed.
Print Assumptions C108_elastic.
(** the conversion to the laboratory frame is not clamped: isotropic in the centre of mass (the default angular distribution), target mass 1, and the cosine that comes back is finite and above 1.5 *)
Theorem C108_cm_refuted : forall lm, lm_pow lm 2 2 = 4%float -> exists d mu Eo, @make_dphoton _ (NumF lm) 0 0x1.70a91c18ff98fp+1%float 1%float = Ok d /\ Forall unit_double [0.5; 0]%float /\
  @ae_sample _ (@cm_law _ (NumF lm) 1%float 0%float (@uncor_law _ (NumF lm) (mkUC (@adist_default _ (NumF lm)) (@dphoton_law _ (NumF lm) d)))) 0x1.70a91d1415264p+3%float [0.5; 0]%float = Ok ((mu, Eo), []) /\ fin mu /\ PrimFloat.ltb 1.5 mu = true.
Proof. exact cm_refuted. Qed.
Print Assumptions C108_cm_refuted.
(** and another pair of energies one ulp-scale step below E/4 gives a NaN cosine with a negative outgoing energy *)
Theorem C108_cm_nan_refuted : forall lm, lm_pow lm 2 2 = 4%float -> exists d mu Eo, @make_dphoton _ (NumF lm) 0 0x1.1ffffffffffddp+0%float 1%float = Ok d /\
  @ae_sample _ (@cm_law _ (NumF lm) 1%float 0%float (@uncor_law _ (NumF lm) (mkUC (@adist_default _ (NumF lm)) (@dphoton_law _ (NumF lm) d)))) 4.5%float [0.5; 0]%float = Ok ((mu, Eo), []) /\ PrimFloat.is_nan mu = true /\ PrimFloat.ltb Eo 0 = true.
Proof. exact cm_nan. Qed.
Print Assumptions C108_cm_nan_refuted.

(** the hypotheses are met: draws that give cosines at both ends and inside, and the clamp at work *)
Example C108_isotropic_met : forall lm, al_sample (@isotropic _ (NumF lm)) [0]%float = Ok ((-1)%float, []) /\ al_sample (@isotropic _ (NumF lm)) [0.75]%float = Ok (0.5%float, []).
Proof. intros lm. split; vm_compute; reflexivity. Qed.
Example C108_bins_met : forall lm, al_sample (@angle_bins _ (NumF lm) (repeat 1%float 33)) [0.75]%float = Ok (1%float, []) /\ PrimFloat.ltb 1 ((0.75 - 24 * 0.03125) / 0.03125 + 1.5)%float = true.
Proof. intros lm. split; vm_compute; reflexivity. Qed.
(** NBody with n = 3 uses seven draws; its cosine is 2 xi - 1 of the last *)
Example C108_nbody_met : forall lm, exists d Eo, @make_nbody _ (NumF lm) 3 4%float 3%float 1%float = Ok d /\ @nb_sample _ (NumF lm) d 2%float [0.5; 0.5; 0.5; 0.5; 0.5; 0.5; 0.25]%float = Ok (((-0.5)%float, Eo), []).
Proof. intros lm. do 2 eexists. split; [vm_compute; reflexivity|]. unfold nb_sample. cbn. reflexivity. Qed.
(** a file whose reaction 0 has the NBody law *)
Definition nbody_aceF : ace float := mkAce 1001%Z 3%float 300%float false (repeat 0%Z 16) ([0; 0; 0; 0; 0; 0; 0; 1; 0; 3; 4] ++ repeat 0 21)%Z
  [0; -1; 1;  0; 66; 10; 0; 2; 1; 20; 1; 1;  3; 4]%float.
Example C108_file_met : forall lm, exists d, @load_neutron_fuel _ (NumF lm) 2 nbody_aceF 0 1%float 3%float false = Ok d /\ exists Eo, ae_sample d 2%float [0.5; 0.5; 0.5; 0.5; 0.5; 0.5; 0.25]%float = Ok (((-0.5)%float, Eo), []).
Proof. intros lm. eexists. split; [vm_compute; reflexivity|]. eexists. cbn. reflexivity. Qed.
(** elastic scattering of a 1 MeV neutron by a nucleus of mass 1 at rest, centre-of-mass cosine 0: the cosine comes out near the square root of 1/2 *)
Definition elastic_F : elastic_obj float := mkElastic (fun _ => rret 0%float) 1%float 0%float true 0%float (fun _ _ _ => rret (mkVec 0 0 0)%float).
Definition lm_el : Libm := {| lm_exp := fun x => x; lm_log := fun x => x; lm_pow := fun x _ => x; lm_sin := fun _ => 0%float; lm_cos := fun _ => 1%float; lm_sinh := fun x => x; lm_cosh := fun x => x; lm_erf := fun x => x; lm_pi := 3%float |}.
Example C108_elastic_met : exists mu Eo, @elastic_sample _ (NumF lm_el) elastic_F 1%float [0]%float = Ok ((mu, Eo), []) /\ PrimFloat.ltb 0.25 Eo = true /\ PrimFloat.ltb mu 0.75 = true /\ PrimFloat.ltb 0.5 mu = true /\ fin Eo.
Proof. do 2 eexists. split; [vm_compute; reflexivity|]. repeat split; vm_compute; reflexivity. Qed.
