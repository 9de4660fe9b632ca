(** * N-body phase space: the textbook energy spectrum *)
From Coq Require Import Reals ZArith.
Local Open Scope R_scope.
(** the spectrum of one of [n] particles that share the energy so that it can get at most [M]: sqrt x (M-x)^(3n/2-4), normalised *)
Definition phase_space (n : Z) (M x : R) : R :=
  match n with
  | 3%Z => 8 / (PI * (M * M)) * (sqrt x * sqrt (M - x))
  | 4%Z => 105 / (16 * (M * M * M * sqrt M)) * (sqrt x * ((M - x) * (M - x)))
  | 5%Z => 256 / (7 * PI * (M * M * M * M * M)) * (sqrt x * ((M - x) * (M - x) * (M - x) * sqrt (M - x)))
  | _ => 0
  end.
(** the largest energy it can get: [Ap] the total mass ratio of the particles, [A] the mass ratio of the target *)
Definition share_max (Ap A Q E : R) : R := (Ap - 1) / Ap * (A / (A + 1) * E + Q).
