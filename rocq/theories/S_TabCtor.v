(** * Specification: the tables a law accepts *)
From Coq Require Import Reals List.
From Verif Require Import Base M_Interp L_SearchR.
Local Open Scope R_scope.

(** no sign change (the code tests the sign bit; zero counts as positive) *)
Definition one_sign (l : list R) : Prop := (forall v, In v l -> 0 <= v) \/ (forall v, In v l -> v < 0).
(** the extra conditions a law puts on the abscissae and ordinates of a table *)
Definition grid_ok (i : interpolation) (x y : list R) : Prop :=
  match i with
  | Histogram => forall k, (0 <= k)%Z -> (k + 1 < sizeZ x)%Z -> getR x k <> getR x (k + 1)
  | LinLin => True
  | LinLog => one_sign x
  | LogLin => one_sign y
  | LogLog => one_sign x /\ one_sign y
  end.
