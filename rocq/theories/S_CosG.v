(** * Specification vocabulary for scattering cosines of neutron laws in double precision (C108) *)
From Coq Require Import List.
From Coq Require Import Floats.
From Verif Require Import Base NumF S_PickF S_CosF.

(** a double in [-1,1], or NaN *)
Definition cosine_or_nan (mu : float) : Prop := PrimFloat.is_nan mu = true \/ cosine mu.
(** whatever random doubles in [0,1) the generator returns, the cosine that comes back is in [-1,1] or NaN *)
Definition cosines_only (s : rand float float) : Prop := forall ds mu rest, Forall unit_double ds -> s ds = Ok (mu, rest) -> cosine_or_nan mu.
Definition pairs_only (s : rand float (float * float)) : Prop := forall ds mu Eo rest, Forall unit_double ds -> s ds = Ok ((mu, Eo), rest) -> cosine_or_nan mu.
