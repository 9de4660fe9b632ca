(** * Specification: Legendre polynomials by Bonnet's recursion *)
From Coq Require Import Reals List.
Local Open Scope R_scope.
(** (P_n x, P_{n+1} x) with (n+2) P_{n+2} = (2n+3) x P_{n+1} - (n+1) P_n *)
Fixpoint P2 (n : nat) (x : R) : R * R :=
  match n with
  | O => (1, x)
  | S m => let '(p, q) := P2 m x in (q, ((2 * INR m + 3) * x * q - (INR m + 1) * p) / (INR m + 2))
  end.
Definition P (n : nat) (x : R) : R := fst (P2 n x).
(** sum_{l >= l0} (2l+1)/2 a_l P_l(mu) *)
Fixpoint series (l0 : nat) (a : list R) (mu : R) : R :=
  match a with
  | nil => 0
  | c :: t => (2 * INR l0 + 1) / 2 * c * P l0 mu + series (S l0) t mu
  end.
