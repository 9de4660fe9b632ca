(** * Theorems of C110: outgoing energies of the N-body law in double precision *)
From Coq Require Import Reals Lra Lia ZArith Bool List ZifyBool ZifyNat.
From Coq Require Import Floats.
From Verif Require Import Base NumF S_PickF M_Spectra L_PickF L_NbF.
Import ListNotations.
Local Open Scope R_scope.

(** for every libm whose logarithm of a number in [0,1) is not positive and whose squares are not negative (whatever else they return, NaN and infinities included, and whatever its cosine returns):
    the energy is NaN or between 0 and the largest energy the kinematics allow *)
Theorem C110_nbody_energy : forall lm, (forall x, unit_double x -> PrimFloat.ltb 0 (lm_log lm x) = false) -> (forall x, PrimFloat.ltb (lm_pow lm x 2) 0 = false) ->
  forall d E ds mu Eo rest, fin (@nb_Emax _ (NumF lm) d E) -> 0 <= BR (@nb_Emax _ (NumF lm) d E) -> Forall unit_double ds -> @nb_sample _ (NumF lm) d E ds = Ok ((mu, Eo), rest) ->
  PrimFloat.is_nan Eo = true \/ fin Eo /\ 0 <= BR Eo <= BR (@nb_Emax _ (NumF lm) d E).
Proof. exact nb_energy. Qed.
Print Assumptions C110_nbody_energy.
(** the NaN case occurs: a random number of exactly 0 makes the logarithm infinite *)
Theorem C110_nbody_nan_occurs : exists lm, (forall x, unit_double x -> PrimFloat.ltb 0 (lm_log lm x) = false) /\ lm_log lm 0 = neg_infinity /\ exists d mu Eo, @make_nbody _ (NumF lm) 3 4%float 3%float 1%float = Ok d /\
  Forall unit_double [0.5; 0; 0.5; 0.5; 0.5; 0.5; 0.25]%float /\ @nb_sample _ (NumF lm) d 2%float [0.5; 0; 0.5; 0.5; 0.5; 0.5; 0.25]%float = Ok ((mu, Eo), []) /\ PrimFloat.is_nan Eo = true.
Proof. exact nb_nan. Qed.
Print Assumptions C110_nbody_nan_occurs.

(** the hypotheses are met *)
Example C110_met : (forall x, unit_double x -> PrimFloat.ltb 0 (lm_log lm_n x) = false) /\ (forall x, PrimFloat.ltb (lm_pow lm_n x 2) 0 = false) /\ exists d mu Eo, @make_nbody _ (NumF lm_n) 3 4%float 3%float 1%float = Ok d /\
  PrimFloat.eqb (@nb_Emax _ (NumF lm_n) d 2%float) 1.875 = true /\ @nb_sample _ (NumF lm_n) d 2%float [0.5; 0.5; 0.5; 0.5; 0.5; 0.5; 0.25]%float = Ok ((mu, Eo), []) /\ PrimFloat.eqb Eo 0.9375 = true.
Proof. split; [exact lm_n_log|]. split; [intros x; vm_compute; reflexivity|]. do 3 eexists. split; [vm_compute; reflexivity|]. split; [vm_compute; reflexivity|]. split; vm_compute; reflexivity. Qed.
