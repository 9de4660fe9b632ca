(** * Specification vocabulary for equiprobable energies in double precision (C109) *)
From Coq Require Import Reals ZArith List.
From Coq Require Import Floats.
From Verif Require Import Base NumF S_PickF.
Local Open Scope R_scope.

(** every number is finite and not negative *)
Definition energies_ok (b : list float) : Prop := Forall (fun x => fin x /\ 0 <= BR x) b.
(** [x] lies between two consecutive entries of [b] *)
Definition in_some_bin (b : list float) (x : float) : Prop := exists k lo hi, atZ b k = Ok lo /\ atZ b (k + 1)%Z = Ok hi /\ fin x /\ BR lo <= BR x <= BR hi.
