(** * Probability: what it means that a sampler returns a value with some property with probability q *)
From Coq Require Import Reals List. From Coquelicot Require Import Coquelicot.
From Verif Require Import Base. Import ListNotations.
Local Open Scope R_scope.
(** the expected value of [f] of [n] independent random numbers uniform in (0,1): the iterated integral over the unit cube *)
Fixpoint expect (n : nat) (f : list R -> R) (v : R) : Prop :=
  match n with
  | O => v = f []
  | S m => exists g : R -> R, (forall x, 0 < x < 1 -> expect m (fun l => f (x :: l)) (g x)) /\ is_RInt g 0 1 v
  end.
Definition unit_draws (n : nat) (l : list R) : Prop := length l = n /\ Forall (fun x => 0 < x < 1) l.
(** the probability of an event of [n] such numbers *)
Definition prob (n : nat) (A : list R -> Prop) (p : R) : Prop :=
  exists f, (forall l, unit_draws n l -> (A l /\ f l = 1) \/ (~ A l /\ f l = 0)) /\ expect n f p.
(** [s], given ever more uniform random numbers, returns a value in [B] with probability [q] *)
Definition law {A} (s : rand R A) (B : A -> Prop) (q : R) : Prop :=
  exists p : nat -> R, (forall k, prob k (fun ds => exists v rest, s ds = Ok (v, rest) /\ B v) (p k)) /\ is_lim_seq p q.
(** [s] returns a value distributed with density [f] on [a,b] *)
Definition has_density (s : rand R R) (a b : R) (f : R -> R) : Prop :=
  law s (fun v => a <= v <= b) 1 /\ forall e, a <= e <= b -> exists q, law s (fun v => v <= e) q /\ is_RInt f a e q.
(** the density of a value with density [p] on [a,b] stretched linearly to [lo,hi] *)
Definition stretched (p : R -> R) (a b lo hi : R) (x : R) : R := (b - a) / (hi - lo) * p (a + (x - lo) * ((b - a) / (hi - lo))).
