(** * Property theorem C57 (rng.cpp) *)
From Verif Require Import Base NumR M_Rng L_Rng.
Local Open Scope Z_scope.

(** State after any history of rng(), rng_reset(), rng_seed(s), rng_advance(n): the closed form of the
    LCG, with the seed in force and the number of transitions made since ([since], a plain count). *)
Theorem C57_state_of_any_history : forall os,
  fst (rng_history os) =
  (lcg_a ^ Z.of_nat (snd (since 1 0 os)) * (fst (since 1 0 os) mod 2 ^ 63) + geom lcg_a (snd (since 1 0 os))) mod 2 ^ 63.
Proof. exact history_closed. Qed.
Print Assumptions C57_state_of_any_history.
Theorem C57_advance_equals_draws : forall n os os',
  fst (rng_history (os ++ RngAdvance n :: os')) = fst (rng_history (os ++ repeat Rng n ++ os')) /\
  snd (rng_run (fst (rng_history (os ++ [RngAdvance n]))) os') =
  snd (rng_run (fst (rng_history (os ++ repeat Rng n))) os').
Proof. exact advance_is_draws. Qed.
Theorem C57_values_in_unit_interval : forall os x, 0 <= x < 2 ^ 63 ->
  Forall (fun v => (0 <= v < 1)%R) (snd (rng_run x os)).
Proof. exact rng_values_in_range. Qed.
Print Assumptions C57_values_in_unit_interval.
(** the period is exactly 2^63 and every state is visited *)
Theorem C57_period : forall s k, 0 <= s < 2 ^ 63 -> (lcg_discard k s = s <-> (2 ^ 63 | Z.of_nat k)).
Proof. exact period_exact. Qed.
Print Assumptions C57_period.
Theorem C57_full_range : forall s t, 0 <= s < 2 ^ 63 -> 0 <= t < 2 ^ 63 ->
  exists k, Z.of_nat k < 2 ^ 63 /\ lcg_discard k s = t.
Proof. exact full_range. Qed.
Print Assumptions C57_full_range.
Example C57_case : since 1 0 [Rng; Rng; RngSeed 5; RngAdvance 3; Rng] = (5, 4%nat) /\
  fst (rng_history [Rng]) = 2806196910506780710.
Proof. split; reflexivity. Qed.
Print Assumptions C57_advance_equals_draws.
