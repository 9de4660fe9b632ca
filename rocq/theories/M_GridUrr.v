(** * Model of the unresolved-resonance fields of EnergyGrid (energy_grid.hpp 92-103, energy_grid.cpp 29-46, 65-66) *)
From Verif Require Import Base M_Grid M_Ace.
Local Open Scope num_scope.
Section GridUrr.
  Context {T : Type} {N : Num T}.
  (** energy_grid.cpp 39-46: jxs(22) is converted to uint32_t and the sum wraps *)
  Definition grid_urr_of_ace (a : ace T) : res T := if (jxs a 22 =? 0)%Z then Ok #50000 else xss a (wrap32 (jxs a 22 - 1 + 6)).
  (** energy_grid.cpp 65-66: this constructor does not initialise urr_start_energy_; [garbage] is what the memory holds *)
  Definition grid_urr_of_vector (garbage : T) (vals : list T) : T := garbage.
  (** energy_grid.hpp 92, 103 *)
  Definition has_urr (urr_start : T) (g : egrid T) : res bool := let! m := backR (g_vals g) in Ok (urr_start <~ m).
End GridUrr.
