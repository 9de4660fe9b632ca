(** * Specification vocabulary for a whole thermal scattering file (C106): what it says, how it is laid out, what its user is answered *)
From Coq Require Import Reals List.
From Verif Require Import Base NumR L_SearchR M_Interp M_PC S_PC S_OutE M_Ace M_Thermal S_Thermal S_Neutron S_ThermalFile.
Import ListNotations.
Local Open Scope R_scope.

(** ** the contents of a file *)
(** outgoing energies: per incident energy, lines with their cosines; or a table of entries *)
Inductive inelastic := Lines (skewed : bool) (rows : list (list (R * list R))) | Tables (tabs : list (list entry)).
(** elastic scattering: none; Bragg edges and cumulated structure factors; energies, cross sections and rows of cosines *)
Inductive elastic := NoElastic | Coherent (edges sums : list R) | Incoherent (energy xs : list R) (rows : list (list R)).
Record thermal := mkThermal { th_energy : list R; th_xs : list R; th_inelastic : inelastic; th_elastic : elastic }.

(** ** the layout.  JXS and NXS are one-based in the format, zero-based in [jxs], [nxs] *)
(** the tables of entries, where the locators say *)
Inductive laid (a : ace R) (nmu : Z) : list Z -> list Z -> list (list entry) -> Prop :=
| laid_nil : laid a nmu [] [] []
| laid_cons loc es locs noes tabs : u32 loc -> u32 (sizeZ es) -> Forall (fun e => sizeZ (en_mu e) = nmu) es -> holds a loc (entries_block es) ->
    laid a nmu locs noes tabs -> laid a nmu (loc :: locs) (sizeZ es :: noes) (es :: tabs).
Definition inelastic_written (a : ace R) (p : inelastic) : Prop :=
  match p with
  | Lines skewed rows => exists noe nmu,
      nxs a 6 = (if skewed then 1 else 0)%Z /\ nxs a 3 = noe /\ (0 < noe < 2 ^ 31)%Z /\ (nxs a 2 + 1 = nmu)%Z /\ (0 < nmu < 2 ^ 31)%Z /\
      Forall (fun r => sizeZ r = noe /\ Forall (fun l => sizeZ (snd l) = nmu) r) rows /\ holds a (jxs a 2 - 1) (lines_block rows)
  | Tables tabs => exists nmu locs noes,
      nxs a 6 = 2%Z /\ (nxs a 2 - 1 = nmu)%Z /\ (0 < nmu < 2 ^ 31)%Z /\ (0 < jxs a 2 <= 2 ^ 31)%Z /\
      laid a nmu locs noes tabs /\ holds a (jxs a 2 - 1) (nums locs ++ nums noes)
  end.
Definition elastic_written (a : ace R) (p : elastic) : Prop :=
  match p with
  | NoElastic => jxs a 3 = 0%Z /\ nxs a 4 <> 4%Z
  | Coherent edges sums => jxs a 3 <> 0%Z /\ nxs a 4 = 4%Z /\ u32 (sizeZ edges) /\ length sums = length edges /\ holds a (jxs a 3 - 1) (counted edges sums)
  | Incoherent energy xs rows => exists nmu,
      jxs a 3 <> 0%Z /\ nxs a 4 <> 4%Z /\ u32 (sizeZ energy) /\ length xs = length energy /\ length rows = length energy /\ (nxs a 5 + 1 = nmu)%Z /\ (0 < nmu < 2 ^ 31)%Z /\
      Forall (fun r => sizeZ r = nmu) rows /\ holds a (jxs a 3 - 1) (counted energy xs) /\ holds a (jxs a 5 - 1) (concat rows)
  end.
Definition rows_of (p : inelastic) : nat := match p with Lines _ rows => length rows | Tables tabs => length tabs end.
Record written (a : ace R) (f : thermal) : Prop := {
  wr_size : (sizeZ (th_energy f) < 2 ^ 31)%Z;
  wr_xs : length (th_xs f) = length (th_energy f);
  wr_rows : rows_of (th_inelastic f) = length (th_energy f);
  wr_block : holds a (jxs a 0 - 1) (counted (th_energy f) (th_xs f));
  wr_inelastic : inelastic_written a (th_inelastic f);
  wr_elastic : elastic_written a (th_elastic f) }.

(** ** physically meaningful contents *)
(** a grid: at least two points, ascending, positive *)
Definition energy_grid (x : list R) : Prop := (2 <= sizeZ x)%Z /\ strictly_increasing x /\ 0 < getR x 0.
Definition cosine (m : R) : Prop := -1 <= m <= 1.
(** a density and its cumulated distribution, once the point at zero energy is added where the format leaves it out *)
Definition proper_table (es : list entry) : Prop :=
  Forall (fun e => 0 <= en_pdf e) es /\ Forall (fun e => Forall cosine (en_mu e)) es /\ Forall (fun e => 0 <= en_E e) es /\ increasing (map en_E es) /\
  let with_zero (z : R) (v : list R) := if Rlt_dec 0 (first_cdf es) then z :: v else v in
  valid_table (with_zero 0 (map en_E es)) (with_zero 0 (map en_pdf es)) (with_zero 0 (map en_cdf es)) LinLin.
Definition inelastic_meaningful (p : inelastic) : Prop :=
  match p with
  | Lines skewed rows => Forall (Forall (fun l => 0 < fst l /\ Forall cosine (snd l))) rows /\ (skewed = true -> Forall (fun r => (6 <= sizeZ r)%Z) rows)
  | Tables tabs => Forall proper_table tabs
  end.
Definition elastic_meaningful (p : elastic) : Prop :=
  match p with
  | NoElastic => True
  | Coherent edges sums => edges <> [] /\ increasing edges /\ 0 <= getR edges 0 /\ increasing sums /\ 0 <= getR sums 0
  | Incoherent energy xs rows => energy_grid energy /\ Forall (fun v => 0 <= v) xs /\ Forall (fun r => increasing r /\ Forall cosine r) rows
  end.
Record meaningful (f : thermal) : Prop := {
  mf_grid : energy_grid (th_energy f); mf_xs : Forall (fun v => 0 <= v) (th_xs f);
  mf_inelastic : inelastic_meaningful (th_inelastic f); mf_elastic : elastic_meaningful (th_elastic f) }.

(** ** the answers *)
(** the elastic cross section; exactly at the first or the last Bragg edge it is some cumulated factor over E *)
Definition elastic_xs (p : elastic) (E s : R) : Prop :=
  match p with
  | NoElastic => s = 0
  | Coherent edges sums =>
      (E < getR edges 0 /\ s = 0) \/
      (getR edges 0 < E /\ (exists l, last_edge_below edges E l /\ s = getR sums l / E)) \/
      ((E = getR edges 0 \/ E = getR edges (sizeZ edges - 1)) /\ s = getR sums (sizeZ edges - 1) / E)
  | Incoherent energy xs _ => lin_table energy xs E s
  end.
(** random numbers *)
Definition draws (n : nat) (ds : list R) : Prop := (n <= length ds)%nat /\ Forall (fun x => 0 <= x < 1) ds.
(** an elastic collision keeps the energy; on a crystal its cosine is that of one of the edges below E *)
Definition elastic_outcome (p : elastic) (E mu Eo : R) : Prop :=
  cosine mu /\ Eo = E /\
  match p with
  | Coherent edges _ => (E <= getR edges 0 /\ mu = 1) \/ (exists m, (0 <= m < sizeZ edges)%Z /\ getR edges m < E /\ mu = 1 - 2 * getR edges m / E)
  | _ => True
  end.
