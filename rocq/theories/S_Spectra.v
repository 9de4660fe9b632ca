(** * Specification vocabulary for outgoing spectra *)
From Coquelicot Require Import Coquelicot.
From Verif Require Import Base NumR L_SearchR M_Grid M_Spectra.
Local Open Scope R_scope.

(** cumulative probability of the first [d] components *)
Fixpoint cumulative (d : nat) (p : list R) : R :=
  match d, p with S m, x :: t => x + cumulative m t | _, _ => 0 end.
(** weighted sum of paired lists *)
Fixpoint weighted (p v : list R) : R :=
  match p, v with x :: p', y :: v' => x * y + weighted p' v' | _, _ => 0 end.
(** the functions [fs] evaluate at E to the numbers [vs] *)
Definition evaluate_to (fs : list (R -> res R)) (E : R) (vs : list R) : Prop := Forall2 (fun f v => f E = Ok v) fs vs.
(** the cross section with which a reaction contributes at E, on grid interval i: none at or below its threshold *)
Definition contributes (r : freact R) (E : R) (i : Z) (x : R) : Prop :=
  (fr_threshold r < E /\ xs_eval_i (fr_xs r) E i = Ok x) \/ (E <= fr_threshold r /\ x = 0).
(** the piecewise function value of a partial computation that always succeeds *)
Definition computes (f : R -> res R) (g : R -> R) : Prop := forall x, f x = Ok (g x).
