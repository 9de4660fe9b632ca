(** * Specification: tables at several incident energies *)
From Verif Require Import Base NumR L_SearchR M_Interp M_PC S_PC M_OutE.
Local Open Scope R_scope.

(** the pair of neighbouring tables and the interpolation factor used at energy E: below the grid the first table, above it the
    last one, in between the two bracketing tables with the linear interpolation factor *)
Definition bracket (energy : list R) (E : R) (l : Z) (f : R) : Prop :=
  (0 <= l)%Z /\ (l + 1 < sizeZ energy)%Z /\
  ((E <= getR energy 0 /\ l = 0%Z /\ f = 0) \/
   (getR energy (sizeZ energy - 1) < E /\ l = (sizeZ energy - 2)%Z /\ f = 1) \/
   (getR energy l < E <= getR energy (l + 1) /\ f = (E - getR energy l) / (getR energy (l + 1) - getR energy l))).
(** the only table that can be used when the energy is a grid energy or outside the grid (below the grid: for a positive first draw x1) *)
Definition own_table (energy : list R) (E x1 : R) (k : Z) : Prop :=
  (E <= getR energy 0 /\ k = 0%Z /\ 0 < x1) \/ ((0 < k < sizeZ energy)%Z /\ (E = getR energy k \/ (getR energy k < E /\ k = (sizeZ energy - 1)%Z))).
(** a probability table whose CDF is the integral of its PDF *)
Definition valid_pc (t : pctable R) : Prop := valid_table (pc_values t) (pc_pdfs t) (pc_cdf t) (pc_interp t).
(** an energy table of that kind with one angular table of that kind per point *)
Record valid_eat (t : eat R) : Prop := {
  ve_table : valid_table (ea_energy t) (ea_pdf t) (ea_cdf t) (ea_interp t);
  ve_size : sizeZ (ea_angles t) = sizeZ (ea_energy t);
  ve_angles : forall a, In a (ea_angles t) -> valid_pc a }.
(** an energy table of that kind with one pair of Kalbach parameters per point *)
Record valid_kt (t : kt R) : Prop := {
  vk_table : valid_table (k_energy t) (k_pdf t) (k_cdf t) (k_interp t);
  vk_R : sizeZ (k_R t) = sizeZ (k_energy t);
  vk_A : sizeZ (k_A t) = sizeZ (k_energy t) }.
(** first and last abscissa of a list *)
Definition first_of (v : list R) : R := getR v 0.
Definition last_of (v : list R) : R := getR v (sizeZ v - 1).
(** linear interpolation between two values *)
Definition mix (f a b : R) : R := (1 - f) * a + f * b.
(** x divides [lo,hi] as h divides [a,b] *)
Definition same_fraction (x lo hi h a b : R) : Prop := (x - lo) * (b - a) = (h - a) * (hi - lo).
(** the Kalbach-Mann angular density (slope a, precompound fraction r) *)
Definition kalbach_density (a r mu : R) : R := a / (2 * sinh a) * (cosh (a * mu) + r * sinh (a * mu)).
