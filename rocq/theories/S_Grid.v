(** * Specification vocabulary for energy grids and cross sections (no model functions except the constructors) *)
From Verif Require Import Base NumR L_SearchR M_Grid.
Local Open Scope R_scope.

(** a usable energy grid: non-empty, non-decreasing, positive *)
Definition energy_grid (vals : list R) : Prop := (1 <= sizeZ vals < 2 ^ 32)%Z /\ increasing vals /\ 0 < getR vals 0.
(** what the lookup must return *)
Definition lower_index (vals : list R) (E : R) (i : Z) : Prop :=
  (E <= getR vals 0 /\ i = 0%Z) \/
  (getR vals 0 < E /\ getR vals (sizeZ vals - 1) <= E /\ i = (sizeZ vals - 1)%Z) \/
  (getR vals 0 < E < getR vals (sizeZ vals - 1) /\ (0 <= i < sizeZ vals - 1)%Z /\ getR vals i < E <= getR vals (i + 1)).
(** the straight line through two points *)
Definition line (x1 y1 x2 y2 x : R) : R := y1 + (y2 - y1) * (x - x1) / (x2 - x1).
(** x is what the two constructors build from a grid, its number of hash bins, the values and the first index *)
Definition built (vals : list R) (NB : nat) (sig : list R) (idx : Z) (x : xsec R) : Prop :=
  exists g, make_grid vals NB = Ok g /\ make_xs sig g idx = Ok x.
Definition bins_ok (NB : nat) : Prop := (1 <= NB)%nat /\ (Z.of_nat NB < 2 ^ 32 - 1)%Z.
