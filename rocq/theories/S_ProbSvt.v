(** * Specification of the distribution of target velocities in a free gas (speed^2 = energy, neutron along z) *)
From Coq Require Import Reals. From Coquelicot Require Import Coquelicot.
From Verif Require Import Base NumR M_Kin S_Kin S_Doppler.
Local Open Scope R_scope.
(** the velocities of speed at most [V], of cosine to the neutron at most [m] and of azimuth at most [A] *)
Definition velocity_region (V m A : R) (v : vec R) : Prop :=
  exists s mu phi, v = velocity s mu phi /\ 0 <= s <= V /\ -1 <= mu <= m /\ 0 <= phi <= A.
(** [J] is the integral over the speeds up to [V] and the cosines up to [m] of the Maxwell-Boltzmann density of a target
    of mass [awr] at temperature [kT], u^2 exp(-awr u^2 / kT) du dmu, times the function [k] of the relative speed *)
Definition reaction_weight (k : R -> R) (Ein kT awr V m J : R) : Prop := exists g : R -> R,
  (forall u, 0 < u < V -> is_RInt (fun mu => k (relative_speed Ein u mu)) (-1) m (g u)) /\
  is_RInt (fun u => u * u * exp (- (awr * (u * u) / kT)) * g u) 0 V J.
(** [N] is that integral over all velocities *)
Definition total_weight (k : R -> R) (Ein kT awr N : R) : Prop := forall eps, 0 < eps -> exists V0, forall V J, V0 < V -> reaction_weight k Ein kT awr V 1 J -> Rabs (J - N) < eps.
(** resonance rejection: relative speed times the cross section [s] of the relative energy, for relative energies in the window *)
Definition resonance_kernel (s : R -> R) (Ein kT awr t : R) : R :=
  if Rle_dec (window_low Ein kT awr) (t * t) then if Rle_dec (t * t) (window_high Ein kT awr) then t * s (t * t) else 0 else 0.
(** [s] is continuous on [[lo, hi]] *)
Definition continuous_between (s : R -> R) (lo hi : R) : Prop := forall E, lo <= E <= hi -> forall eps, 0 < eps ->
  exists d, 0 < d /\ forall E', lo <= E' <= hi -> Rabs (E' - E) < d -> Rabs (s E' - s E) < eps.
