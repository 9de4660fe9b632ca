(** * Model of src/rng.cpp: the global engine std::linear_congruential_engine<uint64_t,
    2806196910506780709, 1, 2^63> and the four API functions.  The engine is modelled by its
    specification in the C++ standard [rand.eng.lcong]: state x, transition x := (a x + c) mod m,
    seed(s): x := s mod m (c mod m <> 0), default_seed = 1, discard(z) = z transitions.
    rng() (line 34) consumes one transition and returns the new state divided by m
    (std::generate_canonical with 53 <= 63 bits; division exact over R, capped below 1 by libstdc++). *)
From Verif Require Import Base NumR.
Local Open Scope Z_scope.

Definition lcg_a : Z := 2806196910506780709.   (* rng.cpp 28 *)
Definition lcg_c : Z := 1.                      (* rng.cpp 28 *)
Definition lcg_m : Z := 9223372036854775808.    (* rng.cpp 29: 0x8000000000000000 *)
Definition lcg_next (x : Z) : Z := (lcg_a * x + lcg_c) mod lcg_m.
Definition lcg_seed (s : Z) : Z := s mod lcg_m.
Fixpoint lcg_discard (n : nat) (x : Z) : Z := match n with O => x | S k => lcg_discard k (lcg_next x) end.

(** rng.cpp 34-40 *)
Inductive rng_op := Rng | RngReset | RngSeed (s : Z) | RngAdvance (n : nat).
Definition rng_value (x : Z) : R := (IZR x / IZR lcg_m)%R.
Definition rng_step (x : Z) (o : rng_op) : Z * list R :=
  match o with
  | Rng => let x' := lcg_next x in (x', [rng_value x'])
  | RngReset => (lcg_seed 1, [])
  | RngSeed s => (lcg_seed s, [])
  | RngAdvance n => (lcg_discard n x, [])
  end.
(** final state and the numbers returned by rng(), oldest first; the engine starts default seeded *)
Fixpoint rng_run (x : Z) (os : list rng_op) : Z * list R :=
  match os with
  | [] => (x, [])
  | o :: t => let '(x', v) := rng_step x o in let '(x'', w) := rng_run x' t in (x'', v ++ w)
  end.
Definition rng_history (os : list rng_op) : Z * list R := rng_run (lcg_seed 1) os.
