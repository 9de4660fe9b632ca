(** * Specification vocabulary for the secondary distributions of an ACE file: the ACE format's block layouts *)
From Coq Require Import Reals List.
From Verif Require Import Base NumR M_Interp M_Tab1D M_Func M_PC M_OutE M_Spectra M_Kin M_Ace M_Neutron M_Laws S_Neutron.
Import ListNotations.
Local Open Scope R_scope.

(** interpolation codes of a tabulated density: 1 histogram, 2 linear-linear *)
Definition table_interp_code (i : interpolation) : R := match i with Histogram => 1 | _ => 2 end.
(** a tabulated density: interpolation code, number of points, then the columns *)
Definition table_block (i : interpolation) (values : list R) (columns : list (list R)) : list R :=
  [table_interp_code i; IZR (sizeZ values)] ++ values ++ concat columns.
(** a law tabulated on incident energies: interpolation regions (ignored), number of energies, energies, then one entry per energy *)
Definition incident_block (NBT INT : list Z) (energy : list R) (entries : list R) : list R :=
  [IZR (sizeZ NBT)] ++ nums NBT ++ nums INT ++ [IZR (sizeZ energy)] ++ energy ++ entries.
Definition regions_ok (NBT INT : list Z) : Prop := length INT = length NBT /\ Forall u32 NBT /\ Forall u32 INT /\ (sizeZ NBT < 2 ^ 31)%Z.
(** the function tabulated in a [tab_block] (no region: linear-linear everywhere) *)
Definition tabulated (NBT INT : list Z) (energy y : list R) : res (tab R) :=
  match NBT with
  | [] => make_tab [sizeZ energy] [LinLin] energy y
  | _ => make_tab NBT (map endf_interp INT) energy y
  end.
(** the [tables] of a law, each laid out in the file at its one-based locator relative to [base] *)
Definition laid_out {A} (a : ace R) (base : Z) (layout : A -> list R -> Prop) (locs : list Z) (tables : list A) : Prop :=
  Forall2 (fun l t => u32 l /\ u32 (base + l - 1) /\ exists b, holds a (base + l - 1) b /\ layout t b) locs tables.
(** layouts of the tables: the block holds the numbers from which the vector constructor builds the object *)
Definition pc_layout (t : pctable R) (b : list R) : Prop :=
  exists i v p c, table_interp i = true /\ length p = length v /\ length c = length v /\ u32 (sizeZ v) /\ b = table_block i v [p; c] /\ make_pc v p c i = Ok t.
Definition kt_layout (t : kt R) (b : list R) : Prop :=
  exists i v p c r s, table_interp i = true /\ length p = length v /\ length c = length v /\ length r = length v /\ length s = length v /\ u32 (sizeZ v) /\
    b = table_block i v [p; c; r; s] /\ make_kt v p c r s i = Ok t.
Definition eat_layout (a : ace R) (JED : Z) (t : eat R) (b : list R) : Prop :=
  exists i v p c locs angles, table_interp i = true /\ length p = length v /\ length c = length v /\ length locs = length v /\ u32 (sizeZ v) /\
    b = table_block i v [p; c; nums locs] /\ Forall (fun l => l <> 0 /\ - 2 ^ 31 < l < 2 ^ 31)%Z locs /\
    Forall2 (fun l t => exists b, holds a (JED + Z.abs l - 1) b /\ pc_layout t b) locs angles /\
    make_eat v p c angles i = Ok t.

(** an angular law given by its locator relative to AND: 0 isotropic, positive 32 equiprobable bins, negative a tabulated density *)
Inductive angle_layout (a : ace R) : Z -> alaw R -> Prop :=
| al_iso : angle_layout a 0 isotropic
| al_bins l bounds b : (0 < l)%Z -> holds a (AND a + l - 1) bounds -> make_bins bounds = Ok b -> angle_layout a l (angle_bins b)
| al_table l b p t : (l < 0)%Z -> holds a (AND a + (- l) - 1) b -> pc_layout p b -> make_angle_table p = Ok t -> angle_layout a l (angle_table t).
(** locators that a 32-bit reader can follow *)
Definition locator_ok (base l : Z) : Prop := (0 <= base)%Z /\ (base + Z.abs l < 2 ^ 31)%Z.

(** the energy laws (ACE law number, block, object behind the EnergyLaw interface) *)
Inductive energy_layout (a : ace R) (JED : Z) : Z -> list R -> elaw R -> Prop :=
| el_bins NBT INT energy sets n d : regions_ok NBT INT -> u32 (sizeZ energy) -> u32 n -> Forall (fun s => sizeZ s = n) sets ->
    make_ebins energy sets = Ok d ->
    energy_layout a JED 1 (incident_block NBT INT energy (IZR n :: concat sets)) (ebins_law d)
| el_photon lp Eg d : (- 2 ^ 31 <= lp < 2 ^ 31)%Z -> make_dphoton lp Eg (a_awr a) = Ok d -> energy_layout a JED 2 [IZR lp; Eg] (dphoton_law d)
| el_level C1 C2 : energy_layout a JED 3 [C1; C2] (level_law (mkLevel C1 C2))
| el_tabular NBT INT energy locs ts d : regions_ok NBT INT -> u32 (sizeZ energy) -> length locs = length energy ->
    laid_out a JED pc_layout locs ts -> make_tabe energy ts = Ok d ->
    energy_layout a JED 4 (incident_block NBT INT energy (nums locs)) (tabe_law d)
| el_maxwell NBT INT energy y U t : regions_ok NBT INT -> (sizeZ energy < 2 ^ 31)%Z -> length y = length energy -> tabulated NBT INT energy y = Ok t ->
    energy_layout a JED 7 (tab_block NBT INT energy y ++ [U]) (mw_law (t, U))
| el_evap NBT INT energy y U t : regions_ok NBT INT -> (sizeZ energy < 2 ^ 31)%Z -> length y = length energy -> tabulated NBT INT energy y = Ok t ->
    energy_layout a JED 9 (tab_block NBT INT energy y ++ [U]) (ev_law (t, U))
| el_watt NBT1 INT1 energy1 y1 t1 NBT2 INT2 energy2 y2 t2 U :
    regions_ok NBT1 INT1 -> (sizeZ energy1 < 2 ^ 31)%Z -> length y1 = length energy1 -> tabulated NBT1 INT1 energy1 y1 = Ok t1 ->
    regions_ok NBT2 INT2 -> (sizeZ energy2 < 2 ^ 31)%Z -> length y2 = length energy2 -> tabulated NBT2 INT2 energy2 y2 = Ok t2 ->
    energy_layout a JED 11 (tab_block NBT1 INT1 energy1 y1 ++ tab_block NBT2 INT2 energy2 y2 ++ [U]) (watt_law (mkWatt (tab_eval t1) (tab_eval t2) U)).

(** the laws of a reaction: energy laws paired with the angular distribution (None: the file gives none), and the correlated laws *)
Inductive law_layout (a : ace R) (angle : option (adist R)) (q : R) : Z -> list R -> aelaw R -> Prop :=
| ll_energy law b e ad : angle = Some ad -> energy_layout a (DLW a) law b e -> law_layout a angle q law b (uncor_law (mkUC ad e))
| ll_kalbach NBT INT energy locs ts d : regions_ok NBT INT -> u32 (sizeZ energy) -> length locs = length energy ->
    laid_out a (DLW a) kt_layout locs ts -> make_kal energy ts = Ok d ->
    law_layout a angle q 44 (incident_block NBT INT energy (nums locs)) (kal_law d)
| ll_tabular NBT INT energy locs ts d : regions_ok NBT INT -> u32 (sizeZ energy) -> length locs = length energy ->
    laid_out a (DLW a) (eat_layout a (DLW a)) locs ts -> make_tea energy ts = Ok d ->
    law_layout a angle q 61 (incident_block NBT INT energy (nums locs)) (tea_law d)
| ll_nbody n Ap d : u32 n -> make_nbody n Ap (a_awr a) q = Ok d -> law_layout a angle q 66 [IZR n; Ap] (nbody_law d).

(** the linked list of laws of a reaction, from one-based locator [loc] on: next locator (0 at the end), law number,
    locator of the data, probability of the law *)
Inductive law_list (a : ace R) (angle : option (adist R)) (q : R) : Z -> list (aelaw R * tab R) -> Prop :=
| ls_last loc law idat NBT INT energy p data t d :
    u32 idat -> (- 2 ^ 31 <= law < 2 ^ 31)%Z -> regions_ok NBT INT -> u32 (sizeZ energy) -> length p = length energy ->
    holds a (DLW a + loc - 1) ([0; IZR law; IZR idat] ++ tab_block NBT INT energy p) ->
    tabulated NBT INT energy p = Ok t ->
    holds a (DLW a + idat - 1) data -> law_layout a angle q law data d ->
    law_list a angle q loc [(d, t)]
| ls_more loc next law idat NBT INT energy p data t d rest :
    u32 next -> (0 < next)%Z -> u32 idat -> (- 2 ^ 31 <= law < 2 ^ 31)%Z -> regions_ok NBT INT -> u32 (sizeZ energy) -> length p = length energy ->
    holds a (DLW a + loc - 1) ([IZR next; IZR law; IZR idat] ++ tab_block NBT INT energy p) ->
    tabulated NBT INT energy p = Ok t ->
    holds a (DLW a + idat - 1) data -> law_layout a angle q law data d ->
    law_list a angle q next rest ->
    law_list a angle q loc ((d, t) :: rest).

(** the angular distribution of a reaction given by its locator: negative when a correlated law holds it, 0 isotropic, positive a
    table of incident energies, each with the locator of its angular law *)
Inductive adist_layout (a : ace R) : Z -> option (adist R) -> Prop :=
| ad_none locb : (- 2 ^ 31 <= locb < 0)%Z -> adist_layout a locb None
| ad_isotropic : adist_layout a 0 (Some (mkADist [/ 100000] [isotropic]))
| ad_table locb energy locs laws d : (0 < locb)%Z -> locator_ok (AND a) locb -> u32 (sizeZ energy) ->
    holds a (AND a + locb - 1) ([IZR (sizeZ energy)] ++ energy ++ nums locs) -> length locs = length energy ->
    Forall (locator_ok (AND a)) locs -> Forall2 (angle_layout a) locs laws -> make_adist energy laws = Ok d ->
    adist_layout a locb (Some d).
(** one entry of the XSS array *)
Definition entry (a : ace R) (i : Z) (x : R) : Prop := holds a i [x].
(** the numbers of reaction [indx] (from 0): MT number, Q value, and TYR (yield and frame) *)
Definition reaction_entries (a : ace R) (indx mt : Z) (q y : R) : Prop :=
  u32 mt /\ entry a (MTR a + indx) (IZR mt) /\ entry a (LQR a + indx) q /\ entry a (TYR a + indx) y.
(** its cross section: one-based index of its first energy in the grid, number of values, values *)
Definition reaction_xs (a : ace R) (indx i1 : Z) (vals : list R) : Prop :=
  exists loca, u32 loca /\ entry a (LSIG a + indx) (IZR loca) /\ (1 <= i1 < 2 ^ 32)%Z /\ u32 (sizeZ vals) /\
    holds a (SIG a + loca - 1) ([IZR i1; IZR (sizeZ vals)] ++ vals).
(** its secondary distributions with their probabilities, in the order of the file (reaction 0 of LAND is elastic scattering) *)
Definition reaction_laws (a : ace R) (indx : Z) (q : R) (laws : list (aelaw R * tab R)) : Prop :=
  exists locb angle locc, entry a (LAND a + indx + 1) (IZR locb) /\ (- 2 ^ 31 <= locb < 2 ^ 31)%Z /\ adist_layout a locb angle /\
    u32 locc /\ entry a (LDLW a + indx) (IZR locc) /\ law_list a angle q locc laws.
(** the distribution of a reaction with these laws: the law itself, or a mixture in the order of the file *)
Definition combined (l : list (aelaw R * tab R)) (d : aelaw R) : Prop :=
  (exists p, l = [(d, p)]) \/ ((2 <= length l)%nat /\ d = multi_law (mkMD (map fst l) (map (fun p => tab_eval (snd p)) l))).
(** every cosine the distribution returns lies in [-1,1], whatever the incident energy and the draws *)
Definition cosine_ae (d : aelaw R) : Prop :=
  forall E ds mu e ds', (forall x, In x ds -> 0 <= x < 1) -> ae_sample d E ds = Ok ((mu, e), ds') -> -1 <= mu <= 1.

(** the table [t] of a [tab_block] (NR = 0: linear-linear everywhere; NR = 1: one law everywhere) *)
Definition tab_layout (t : tab R) (NBT INT : list Z) (energy y : list R) : Prop :=
  length INT = length NBT /\ length y = length energy /\ Forall u32 NBT /\ Forall u32 INT /\ (sizeZ NBT < 2 ^ 31)%Z /\ u32 (sizeZ energy) /\
  match INT with
  | [] => make_tab1 LinLin energy y
  | [c] => make_tab1 (endf_interp c) energy y
  | _ => make_tab NBT (map endf_interp INT) energy y
  end = Ok t.

(** ** delayed families *)
(** the energy law of delayed family [g] (from 1): only the first law of the list is used *)
Definition delayed_law (a : ace R) (g : Z) (e : elaw R) : Prop :=
  exists locc next law idat data, u32 locc /\ u32 idat /\ (- 2 ^ 31 <= next < 2 ^ 31)%Z /\ In law [1; 4; 7; 9; 11]%Z /\
    entry a (DNEDL a + g - 1) (IZR locc) /\ holds a (DNED a + locc - 1) [IZR next; IZR law; IZR idat] /\
    holds a (DNED a + idat - 1) data /\ energy_layout a (DNED a) law data e.
(** the block of one family: decay constant in inverse shakes (1 shake = 10^-8 s), then the probability table *)
Definition family_layout (a : ace R) (g : Z) (f : family R) (b : list R) : Prop :=
  exists c t p NBT INT energy, tab_layout t NBT INT energy p /\ (sizeZ NBT + sizeZ energy < 2 ^ 30)%Z /\ b = c :: tab_block NBT INT energy p /\
    df_decay f = c * 100000000 /\ df_prob f = t /\ delayed_law a g (df_energy f).
Inductive families_layout (a : ace R) : Z -> list (family R) -> list R -> Prop :=
| fl_nil g : families_layout a g [] []
| fl_cons g f b fs bs : family_layout a g f b -> families_layout a (g + 1) fs bs -> families_layout a g (f :: fs) (b ++ bs).
