(** * Weighted sums, and the density of a pair (cosine, energy) *)
From Coq Require Import Reals List. From Coquelicot Require Import Coquelicot.
From Verif Require Import Base S_Prob. Import ListNotations.
Local Open Scope R_scope.
(** p_1 q_1 + p_2 q_2 + ... *)
Fixpoint weigh (p : list R) (q : list R) : R := match p, q with x :: p', v :: q' => x * v + weigh p' q' | _, _ => 0 end.
(** p_1 + p_2 + ... *)
Fixpoint total (p : list R) : R := match p with [] => 0 | x :: p' => x + total p' end.
(** [s] returns a cosine and an energy with joint density [f] on [-1,1] x [a,b] *)
Definition has_joint_density (s : rand R (R * R)) (a b : R) (f : R -> R -> R) : Prop :=
  law s (fun v => -1 <= fst v <= 1 /\ a <= snd v <= b) 1 /\
  forall m x, -1 <= m <= 1 -> a <= x <= b ->
    exists (g : R -> R) J, (forall mu, -1 <= mu <= m -> is_RInt (f mu) a x (g mu)) /\ is_RInt g (-1) m J /\ law s (fun v => fst v <= m /\ snd v <= x) J.
