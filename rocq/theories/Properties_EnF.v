(** * Theorems of C111: outgoing energies are not negative in double precision *)
From Coq Require Import Reals Lra Lia ZArith Bool List ZifyBool ZifyNat.
From Coq Require Import Floats.
From Verif Require Import Base NumF S_PickF M_Kin M_Spectra L_EnF.
Import ListNotations.
Local Open Scope R_scope.

(** elastic scattering: any incident energy, mass, angular law, thermal-motion model and math library *)
Theorem C111_elastic : forall lm e E_in ds mu Eo rest, @elastic_sample _ (NumF lm) e E_in ds = Ok ((mu, Eo), rest) -> PrimFloat.ltb Eo 0 = false.
Proof. exact elastic_energy. Qed.
Print Assumptions C111_elastic.
(** the three evaporation spectra: whatever the temperature function, the math library and the random numbers, a returned energy is a finite double between 0 and E - U *)
Theorem C111_maxwellian : forall lm temp U E ds v rest, fin (E - U)%float -> @mw_sample _ (NumF lm) temp U E ds = Ok (v, rest) -> fin v /\ 0 <= BR v <= BR (E - U)%float.
Proof. exact mw_energy. Qed.
Print Assumptions C111_maxwellian.
Theorem C111_evaporation : forall lm temp U E ds v rest, fin (E - U)%float -> @ev_sample _ (NumF lm) temp U E ds = Ok (v, rest) -> fin v /\ 0 <= BR v <= BR (E - U)%float.
Proof. exact ev_energy. Qed.
Print Assumptions C111_evaporation.
Theorem C111_watt : forall lm d E ds v rest, fin (E - w_U d)%float -> @w_sample _ (NumF lm) d E ds = Ok (v, rest) -> fin v /\ 0 <= BR v <= BR (E - w_U d)%float.
Proof. exact w_energy. Qed.
Print Assumptions C111_watt.
(** inelastic level scattering does not check: below the threshold of the level the energy is negative *)
Theorem C111_level_refuted : forall lm, exists d v, @make_level _ (NumF lm) (-1)%float 1%float = Ok d /\ @lv_sample _ (NumF lm) d 1.5%float [] = Ok (v, []) /\ PrimFloat.ltb v 0 = true.
Proof. exact level_negative. Qed.
Print Assumptions C111_level_refuted.

(** the hypotheses are met *)
Definition lm_e : Libm := {| lm_exp := fun x => x; lm_log := fun _ => (-0.5)%float; lm_pow := fun _ _ => 1%float; lm_sin := fun _ => 0%float; lm_cos := fun _ => 1%float; lm_sinh := fun x => x; lm_cosh := fun x => x; lm_erf := fun x => x; lm_pi := 3%float |}.
Example C111_maxwellian_met : exists v, @mw_sample _ (NumF lm_e) (fun _ => Ok 1%float) 0.5%float 2%float [0.5; 0.5; 0.5]%float = Ok (v, []) /\ PrimFloat.eqb v 1 = true.
Proof. eexists. split; vm_compute; reflexivity. Qed.
(** a first candidate above E - U is rejected, and no value is returned once the numbers run out *)
Example C111_rejected : @mw_sample _ (NumF lm_e) (fun _ => Ok 1%float) 0.5%float 1%float [0.5; 0.5; 0.5]%float = NoDraw.
Proof. vm_compute. reflexivity. Qed.
Example C111_elastic_met : exists mu Eo, @elastic_sample _ (NumF lm_e) (mkElastic (fun _ => rret 0.5%float) 1%float 0%float true 0%float (fun _ _ _ => rret (mkVec 0 0 0)%float)) 1%float [0]%float = Ok ((mu, Eo), []) /\ PrimFloat.ltb 0.5 Eo = true.
Proof. do 2 eexists. split; vm_compute; reflexivity. Qed.
