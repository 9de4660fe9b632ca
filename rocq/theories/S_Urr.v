(** * Specification vocabulary for the unresolved-resonance block of an ACE file (C65, C38) *)
From Coq Require Import Reals List.
From Verif Require Import Base NumR L_SearchR M_Grid M_Ace M_Neutron S_Neutron.
Import ListNotations.
Local Open Scope R_scope.

(** the table at one incident energy: cumulative probabilities, then the partial cross sections (or factors) of each band *)
Record rows := mkRows { r_cdf : list R; r_total : list R; r_elastic : list R; r_fission : list R; r_capture : list R; r_heating : list R }.
Definition rows_block (r : rows) : list R := ptable_block (r_cdf r) (r_total r) (r_elastic r) (r_fission r) (r_capture r) (r_heating r).
Record rows_ok (n : Z) (r : rows) : Prop := {
  ro_n : sizeZ (r_cdf r) = n; ro_t : sizeZ (r_total r) = n; ro_e : sizeZ (r_elastic r) = n; ro_f : sizeZ (r_fission r) = n; ro_c : sizeZ (r_capture r) = n; ro_h : sizeZ (r_heating r) = n;
  ro_cdf : increasing (r_cdf r); ro_first : 0 < getR (r_cdf r) 0; ro_last : Rabs (1 - getR (r_cdf r) (n - 1)) < / 1000000000000000;
  ro_nonneg : Forall (fun v => 0 <= v) (r_total r ++ r_elastic r ++ r_fission r ++ r_capture r) }.
(** the table kept: the last cumulative probability is made exactly one *)
Definition rows_kept (n : Z) (r : rows) (p : ptable R) : Prop :=
  sizeZ (pt_cdf p) = n /\ sizeZ (pt_bands p) = n /\ getR (pt_cdf p) (n - 1) = 1 /\ (forall k, (0 <= k < n - 1)%Z -> getR (pt_cdf p) k = getR (r_cdf r) k) /\
  (forall k, (0 <= k < n)%Z -> nth_error (pt_bands p) (Z.to_nat k) = Some (mkBand (getR (r_total r) k) (getR (r_elastic r) k) (getR (r_fission r) k) (getR (r_capture r) k) (getR (r_heating r) k))).
(** the block: numbers of energies and bands, interpolation code, competition flags, factors flag, energies, tables *)
Definition urr_block (n interp inel absorb factors : Z) (energy : list R) (ts : list rows) : list R :=
  [IZR (sizeZ energy); IZR n; IZR interp; IZR inel; IZR absorb; IZR factors] ++ energy ++ concat (map rows_block ts).
(** a competition flag: not positive, none; positive, the MT whose cross section is used: the first such reaction of the list *)
Definition competes (flag : Z) (rs : list (reaction R)) (x : option (xsec R)) : Prop :=
  (flag <= 0 /\ x = None)%Z \/ ((0 < flag)%Z /\ exists l r l', rs = l ++ r :: l' /\ rx_mt r = flag /\ Forall (fun q => rx_mt q <> flag) l /\ x = Some (rx_xs r)).
