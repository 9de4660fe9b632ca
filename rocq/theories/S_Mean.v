(** * Probability: expected value of a function of the sampled value *)
From Coq Require Import Reals List. From Coquelicot Require Import Coquelicot.
From Verif Require Import Base S_Prob. Import ListNotations.
Local Open Scope R_scope.
(** given ever more uniform random numbers, the expected value of [g] of the value [s] returns (counted 0 while [s] has not
    returned yet) tends to [m] *)
Definition mean {A} (s : rand R A) (g : A -> R) (m : R) : Prop :=
  exists p : nat -> R, (forall k, expect k (fun ds => match s ds with Ok (v, _) => g v | _ => 0 end) (p k)) /\ is_lim_seq p m.
