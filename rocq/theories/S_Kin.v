(** * Specification vocabulary for directions, frames and elastic collisions (exact arithmetic) *)
From Verif Require Import Base NumR M_Kin.
Local Open Scope R_scope.

(** squared length and scalar product *)
Definition norm2 (u : vec R) : R := vx u * vx u + vy u * vy u + vz u * vz u.
Definition dot (u v : vec R) : R := vx u * vx v + vy u * vy v + vz u * vz v.
Definition lin (a : R) (u : vec R) (b : R) (v : vec R) : vec R :=
  mkVec (a * vx u + b * vx v) (a * vy u + b * vy v) (a * vz u + b * vz v).

(** In units where the neutron mass is 1 and speed^2 is energy, a neutron of velocity [vn] hits a target of mass
    [A] and velocity [vt].  It leaves with velocity [vout]; conservation of momentum gives the target the velocity
    [vt + (vn - vout)/A], and the kinetic energy is conserved; [mu] is the cosine of the angle between the neutron
    velocities before and after in the centre-of-mass frame. *)
Definition elastic_collision (A : R) (vn vt vout : vec R) (mu : R) : Prop :=
  let vt' := lin 1 vt (/ A) (lin 1 vn (-1) vout) in
  let vcm := lin (/ (A + 1)) vn (A / (A + 1)) vt in
  norm2 vout + A * norm2 vt' = norm2 vn + A * norm2 vt /\
  dot (lin 1 vn (-1) vcm) (lin 1 vout (-1) vcm) = mu * norm2 (lin 1 vn (-1) vcm).
