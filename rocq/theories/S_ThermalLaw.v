(** * Laws of the thermal scattering samplers: sums over tables *)
From Coq Require Import Reals ZArith List.
From Verif Require Import Base NumR L_SearchR M_Thermal S_OutE S_Thermal. Import ListNotations.
Local Open Scope R_scope.
(** q 0 + q 1 + ... + q (n-1) *)
Fixpoint sum_to (n : nat) (q : Z -> R) : R := match n with O => 0 | S m => sum_to m q + q (Z.of_nat m) end.
Definition sum_of (n : Z) (q : Z -> R) : R := sum_to (Z.to_nat n) q.
(** one if the value is in the set, zero if not *)
Definition one_if {P : Prop} (d : {P} + {~ P}) : R := if d then 1 else 0.
(** the probability of the j-th of n outgoing energies: equal, or in the proportions 1, 4, 10, ..., 10, 4, 1 *)
Definition energy_weight (skewed : bool) (n j : Z) : R :=
  if skewed then (if (j =? 0)%Z || (j =? n - 1)%Z then 1 else if (j =? 1)%Z || (j =? n - 2)%Z then 4 else 10) / (10 * (IZR n - 3)) else 1 / IZR n.
(** the probability that a value uniform on [centre - width/2, centre + width/2] is at most c *)
Definition uniform_below (centre width c : R) : R :=
  if Rle_dec width 0 then one_if (Rle_dec centre c) else Rmin 1 (Rmax 0 ((c - centre) / width + 1 / 2)).
(** the room around the k-th of n interpolated cosines: the smaller distance to its neighbours, twice the distance to -1 and 1 at the ends *)
Definition cosine_room (row1 row2 : list R) (f : R) (n k : Z) : R :=
  let m := cos_at row1 row2 f in
  Rmin (if (k =? 0)%Z then 2 * (m k + 1) else m k - m (k - 1)%Z) (if (k =? n - 1)%Z then 2 * (1 - m k) else m (k + 1)%Z - m k).
(** the contribution of the m-th edge to the cumulated structure factors *)
Definition structure_step (sums : list R) (m : Z) : R := if (m =? 0)%Z then getR sums 0 else getR sums m - getR sums (m - 1).
(** the tabulated density of outgoing energies: linear between the points *)
Definition tabulated (t : ctable R) (p : R -> R) : Prop := forall j x, (0 <= j)%Z -> (j + 1 < sizeZ (ct_energy t))%Z -> getR (ct_energy t) j < x < getR (ct_energy t) (j + 1) ->
  p x = mix ((x - getR (ct_energy t) j) / (getR (ct_energy t) (j + 1) - getR (ct_energy t) j)) (getR (ct_pdf t) j) (getR (ct_pdf t) (j + 1)).
