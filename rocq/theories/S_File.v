(** * Specification vocabulary for a whole neutron file (C102): what a file describes, where its blocks are, and what the object built from it must hold *)
From Coq Require Import Reals List ZArith Sorting.Sorted Sorting.Permutation.
From Verif Require Import Base NumR L_SearchR M_Interp M_Tab1D M_Func M_Grid M_Packet M_PC M_Spectra M_OutE M_Ace M_Neutron M_Laws S_Neutron S_Laws S_Urr.
Import ListNotations.
Local Open Scope R_scope.

(** a reaction: MT, Q value, TYR, its multiplicity, its laws with their probabilities, the one-based grid index its cross section starts at and the cross section *)
Record rdesc := mkRd { rd_mt : Z; rd_q : R; rd_y : R; rd_yield : func R; rd_laws : list (aelaw R * tab R); rd_i1 : Z; rd_vals : list R }.
(** the multiplicity TYR stands for: a number below 100, or the position of a table *)
Inductive yield_layout (a : ace R) (y : R) : func R -> Prop :=
| yl_const : Rabs y < 100 -> yield_layout a y (FConst (Rabs y))
| yl_table k t NBT INT energy v : (100 <= k < 2 ^ 63)%Z -> Rabs y = IZR k -> tab_layout t NBT INT energy v -> holds a (DLW a + k - 101) (tab_block NBT INT energy v) -> yield_layout a y (FTab t).
(** reaction number [k] (from 0) of the file is [d]; [ne]: number of grid energies *)
Record reaction_at (a : ace R) (ne k : Z) (d : rdesc) : Prop := mkRat {
  ra_entries : reaction_entries a k (rd_mt d) (rd_q d) (rd_y d); ra_mt : (rd_mt d <= 891)%Z;
  ra_yield : yield_layout a (rd_y d) (rd_yield d);
  ra_laws : rd_y d <> 0 -> reaction_laws a k (rd_q d) (rd_laws d);
  ra_xs : reaction_xs a k (rd_i1 d) (rd_vals d);
  ra_fill : (rd_i1 d - 1 + sizeZ (rd_vals d) = ne)%Z; ra_some : rd_vals d <> []; ra_nonneg : Forall (fun v => 0 <= v) (rd_vals d) }.

(** the multiplicities of fission (total, prompt, delayed): one block; prompt and delayed blocks; prompt and total in one block; all three *)
Inductive nu_data (a : ace R) : func R -> func R -> func R -> Prop :=
| nd_one f b : (0 < JXS a 2)%Z -> (JXS a 24 <= 0)%Z -> nu_block f b -> holds a (JXS a 2 - 1) b -> nu_data a f f (FConst 0)
| nd_prompt_delayed p bp d bd : (0 < JXS a 2)%Z -> (1 < JXS a 24)%Z -> nu_block p bp -> holds a (JXS a 2 - 1) bp -> nu_block d bd -> holds a (JXS a 24 - 1) bd -> nu_data a (FSum p d) p d
| nd_prompt_total p bp t bt : (0 < JXS a 2 < 2 ^ 30)%Z -> (JXS a 24 <= 0)%Z -> nu_block p bp -> nu_block t bt -> (sizeZ bp < 2 ^ 30)%Z -> holds a (JXS a 2 - 1) ([- IZR (sizeZ bp)] ++ bp ++ bt) ->
    nu_data a t p (FDiff t p)
| nd_all p bp t bt d bd : (0 < JXS a 2 < 2 ^ 30)%Z -> (1 < JXS a 24)%Z -> nu_block p bp -> nu_block t bt -> (sizeZ bp < 2 ^ 30)%Z -> holds a (JXS a 2 - 1) ([- IZR (sizeZ bp)] ++ bp ++ bt) ->
    nu_block d bd -> holds a (JXS a 24 - 1) bd -> nu_data a t p d.
(** the delayed families: JXS(25) <= 1 says there are none *)
Inductive delayed_data (a : ace R) : list (family R) -> Prop :=
| dd_none : (JXS a 25 <= 1)%Z -> delayed_data a []
| dd_some fs blocks : (1 < JXS a 25)%Z -> NXS a 8 = sizeZ fs -> (sizeZ fs < 2 ^ 32)%Z -> families_layout a 1 fs blocks -> holds a (JXS a 25 - 1) blocks -> delayed_data a fs.

(** probability tables *)
Record udesc := mkUd { ud_n : Z; ud_interp : Z; ud_inelastic : Z; ud_absorption : Z; ud_factors : Z; ud_energy : list R; ud_tables : list rows }.
Definition fission_mt (mt : Z) : Prop := In mt [18; 19; 20; 21; 38]%Z.
(** a competition flag names a reaction of the file that is not a fission reaction, or nothing *)
Definition flag_ok (mts : list Z) (flag : Z) : Prop := (flag <= 0)%Z \/ (In flag mts /\ ~ fission_mt flag).
Record urr_at (a : ace R) (mts : list Z) (u : udesc) : Prop := mkUat {
  ua_pos : (0 < JXS a 23 < 2 ^ 31)%Z; ua_some : ud_energy u <> []; ua_ne : u32 (sizeZ (ud_energy u)); ua_n : u32 (ud_n u);
  ua_interp : ud_interp u = 2%Z \/ ud_interp u = 5%Z;
  ua_flags : (- 2 ^ 31 <= ud_inelastic u < 2 ^ 31)%Z /\ (- 2 ^ 31 <= ud_absorption u < 2 ^ 31)%Z /\ (- 2 ^ 31 <= ud_factors u < 2 ^ 31)%Z;
  ua_inel : flag_ok mts (ud_inelastic u); ua_abs : flag_ok mts (ud_absorption u);
  ua_tables : length (ud_tables u) = length (ud_energy u) /\ Forall (rows_ok (ud_n u)) (ud_tables u);
  ua_block : holds a (JXS a 23 - 1) (urr_block (ud_n u) (ud_interp u) (ud_inelastic u) (ud_absorption u) (ud_factors u) (ud_energy u) (ud_tables u)) }.

(** a whole file *)
Record fdesc := mkFd {
  fd_grid : list R; fd_total : list R; fd_disappearance : list R; fd_elastic : list R; fd_heating : list R; fd_photon : option (list R);
  fd_reactions : list rdesc; fd_angle : adist R;
  fd_nu_total : func R; fd_nu_prompt : func R; fd_nu_delayed : func R; fd_families : list (family R);
  fd_urr : option udesc }.
Definition fd_mts (F : fdesc) : list Z := map rd_mt (fd_reactions F).
Record describes (a : ace R) (F : fdesc) : Prop := mkDes {
  (** the ESZ block: energies in increasing order, total, disappearance and elastic cross sections, heating numbers *)
  de_count : NXS a 3 = sizeZ (fd_grid F) /\ (0 < NXS a 3 < 2 ^ 29)%Z;
  de_energies : increasing (fd_grid F) /\ 0 < getR (fd_grid F) 0;
  de_lengths : Forall (fun c => sizeZ c = sizeZ (fd_grid F)) [fd_total F; fd_disappearance F; fd_elastic F; fd_heating F];
  de_nonneg : Forall (Forall (fun v => 0 <= v)) [fd_total F; fd_disappearance F; fd_elastic F];
  de_esz : holds a (JXS a 1 - 1) (fd_grid F ++ fd_total F ++ fd_disappearance F ++ fd_elastic F ++ fd_heating F);
  (** photon production: JXS(12) = 0, or a column of non-negative numbers *)
  de_photon : match fd_photon F with None => JXS a 12 = 0%Z | Some p => JXS a 12 <> 0%Z /\ sizeZ p = sizeZ (fd_grid F) /\ Forall (fun v => 0 <= v) p /\ holds a (JXS a 12 - 1) p end;
  (** the reactions, all with different MTs *)
  de_reactions : NXS a 4 = sizeZ (fd_reactions F) /\ (NXS a 4 < 2 ^ 32)%Z /\ NoDup (fd_mts F) /\
    forall k d, nth_error (fd_reactions F) k = Some d -> reaction_at a (sizeZ (fd_grid F)) (Z.of_nat k) d;
  (** the angular distribution of elastic scattering *)
  de_angle : exists locb, entry a (LAND a) (IZR locb) /\ (0 <= locb < 2 ^ 31)%Z /\ adist_layout a locb (Some (fd_angle F));
  (** fission: multiplicities, delayed families, and MT 18 or all of MT 19, 20, 21 and 38 *)
  de_fission : if a_fissile a then nu_data a (fd_nu_total F) (fd_nu_prompt F) (fd_nu_delayed F) /\ delayed_data a (fd_families F) /\ (In 18%Z (fd_mts F) \/ forall mt, In mt [19; 20; 21; 38]%Z -> In mt (fd_mts F))
               else fd_nu_total F = FConst 0 /\ fd_nu_prompt F = FConst 0 /\ fd_nu_delayed F = FConst 0 /\ fd_families F = [];
  (** probability tables: JXS(23) = 0 says there are none *)
  de_urr : match fd_urr F with None => JXS a 23 = 0%Z | Some u => urr_at a (fd_mts F) u end }.

(** the reaction object [r] is the reaction [d] of the file *)
Record reaction_as (a : ace R) (F : fdesc) (d : rdesc) (r : reaction R) : Prop := mkRas {
  rs_mt : rx_mt r = rd_mt d; rs_q : rx_q r = rd_q d; rs_awr : rx_awr r = a_awr a; rs_yield : rx_yield r = rd_yield d;
  rs_threshold : rx_threshold r = getR (fd_grid F) (rd_i1 d - 1);
  rs_below : forall i, (0 <= i < rd_i1 d - 1)%Z -> xs_at (rx_xs r) i = Ok 0;
  rs_values : forall k, (0 <= k < sizeZ (rd_vals d))%Z -> xs_at (rx_xs r) (rd_i1 d - 1 + k) = Ok (getR (rd_vals d) k);
  (** no neutron comes out; or the laws of the file, mixed; in the centre-of-mass frame when TYR is negative *)
  rs_none : rd_y d = 0 -> forall E ds, ae_sample (rx_dist r) E ds = Throw;
  rs_lab : 0 < rd_y d -> combined (rd_laws d) (rx_dist r);
  rs_cm : rd_y d < 0 -> exists e, combined (rd_laws d) e /\ rx_dist r = cm_law (a_awr a) (rd_q d) e }.
(** a reaction of the file is kept unless it is a fission reaction of a nuclide that is not fissile *)
Definition kept (a : ace R) (mt : Z) : Prop := fission_mt mt -> a_fissile a = true.
(** the object [n] holds what the file describes *)
Record carries (a : ace R) (F : fdesc) (n : neutron R) : Prop := mkCar {
  ca_temperature : n_temperature n = a_temperature a; ca_fissile : n_fissile n = a_fissile a;
  ca_grid : g_vals (n_grid n) = fd_grid F;
  ca_columns : forall i, (0 <= i < sizeZ (fd_grid F))%Z -> xs_at (n_total n) i = Ok (getR (fd_total F) i) /\ xs_at (n_disappearance n) i = Ok (getR (fd_disappearance F) i) /\
    xs_at (n_elastic_xs n) i = Ok (getR (fd_elastic F) i) /\ xs_at (n_heating n) i = Ok (getR (fd_heating F) i) /\
    xs_at (n_photon n) i = Ok (match fd_photon F with Some p => getR p i | None => 0 end);
  ca_angle : n_elastic n = fd_angle F;
  ca_reactions : forall d, In d (fd_reactions F) -> kept a (rd_mt d) -> neutron_has n (rd_mt d) = Ok true /\ exists r, neutron_reaction n (rd_mt d) = Ok r /\ reaction_as a F d r;
  ca_no_others : forall mt, (0 <= mt)%Z -> ~ (In mt (fd_mts F) /\ kept a mt) -> neutron_has n mt = Ok false /\ neutron_reaction n mt = Throw;
  ca_list : Sorted Z.le (n_mts n) /\ forall mt, In mt (n_mts n) <-> In mt (fd_mts F) /\ kept a mt;
  ca_nu : f_nus (n_fission n) = mkNus (fd_nu_total F) (fd_nu_prompt F) (fd_nu_delayed F); ca_families : f_families (n_fission n) = fd_families F;
  ca_urr : match fd_urr F with None => u_energy (n_urr n) = []
           | Some u => u_energy (n_urr n) = ud_energy u /\ (u_loglog (n_urr n) = true <-> ud_interp u = 5%Z) /\ (u_factors (n_urr n) = true <-> ud_factors u = 1%Z) /\ Forall2 (rows_kept (ud_n u)) (ud_tables u) (u_ptables (n_urr n)) end }.


(** file [a2] describes the same nuclide as [a1], possibly at another temperature: other grid and cross sections, same distributions *)
Record same_nuclide (a1 : ace R) (F1 : fdesc) (a2 : ace R) (F2 : fdesc) : Prop := mkSn {
  sn_fissile : a_fissile a1 = a_fissile a2; sn_awr : a_awr a1 = a_awr a2; sn_angle : fd_angle F1 = fd_angle F2;
  sn_nu1 : fd_nu_total F1 = fd_nu_total F2; sn_nu2 : fd_nu_prompt F1 = fd_nu_prompt F2; sn_nu3 : fd_nu_delayed F1 = fd_nu_delayed F2; sn_families : fd_families F1 = fd_families F2;
  sn_reactions : forall d2, In d2 (fd_reactions F2) -> exists d1, In d1 (fd_reactions F1) /\ rd_mt d1 = rd_mt d2 /\ rd_q d1 = rd_q d2 /\ rd_y d1 = rd_y d2 /\ rd_yield d1 = rd_yield d2 /\ rd_laws d1 = rd_laws d2 }.
