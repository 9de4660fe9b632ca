(** * Specification vocabulary for scattering cosines in double precision (C107) *)
From Coq Require Import Reals ZArith.
From Coq Require Import Floats.
From Verif Require Import Base M_Ace S_PickF.
Local Open Scope R_scope.

(** a finite double in [-1,1] *)
Definition cosine (mu : float) : Prop := fin mu /\ -1 <= BR mu <= 1.
(** every number of the data block is finite (no NaN, no infinity), and the incident energies of the table at word w are not negative:
    it suffices that the first of them is not, since the constructors reject energies out of order *)
Definition finite_file (a : ace float) : Prop := forall i v, xss a i = Ok v -> fin v.
Definition first_energy_ok (a : ace float) (w : Z) : Prop := forall e, xss a w = Ok e -> 0 <= BR e.
