(** * Specification vocabulary for elastic scattering off a target at rest *)
From Coq Require Import Reals.
From Verif Require Import Base.
Local Open Scope R_scope.
(** the energy and the cosine alone of a sampler of (cosine, energy) pairs *)
Definition energy_of (s : rand R (R * R)) : rand R R := fun ds => match s ds with Ok (p, r) => Ok (snd p, r) | Throw => Throw | UB => UB | NoDraw => NoDraw end.
Definition cosine_of (s : rand R (R * R)) : rand R R := fun ds => match s ds with Ok (p, r) => Ok (fst p, r) | Throw => Throw | UB => UB | NoDraw => NoDraw end.
(** the least fraction of its energy a neutron keeps in one elastic collision with a nucleus at rest of A neutron masses *)
Definition kept (A : R) : R := ((A - 1) / (A + 1)) * ((A - 1) / (A + 1)).
(** every cosine the sampler returns lies in [-1,1] *)
Definition cosines (s : rand R R) : Prop := forall ds m r, List.Forall (fun x => 0 < x < 1) ds -> s ds = Ok (m, r) -> -1 <= m <= 1.
