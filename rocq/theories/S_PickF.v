(** * Specification vocabulary for discrete choices in double precision (C97, C98) *)
From Coq Require Import Reals ZArith.
From Flocq Require Import Core IEEE754.BinarySingleNaN IEEE754.PrimFloat.
From Coq Require Import Floats.
Local Open Scope R_scope.

(** the real number a double stands for (0 for NaN and infinities), and the doubles that stand for one *)
Definition BR (x : float) : R := B2R (Prim2B x).
Definition fin (x : float) : Prop := BinarySingleNaN.is_finite (Prim2B x) = true.
(** a double in [0,1), as a random number generator returns *)
Definition unit_double (x : float) : Prop := (PrimFloat.leb 0 x = true /\ PrimFloat.ltb x 1 = true)%float.
(** the draw x falls in the k-th of n equal cells [k/n, (k+1)/n), or at most 2^-53 below it *)
Definition near_cell (n : Z) (x : R) (k : Z) : Prop := (0 <= k < n)%Z /\ IZR k / IZR n - / 2 ^ 53 <= x < (IZR k + 1) / IZR n.
