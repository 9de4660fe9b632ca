(** * Specification vocabulary: which described files are usable throughout, and what "every query is answered" means (C103) *)
From Coq Require Import Reals List ZArith.
From Verif Require Import Base NumR L_SearchR M_Interp M_Tab1D M_Func M_Grid M_Packet M_PC M_Spectra M_OutE M_Kin M_Ace M_Neutron M_Laws S_Neutron S_Laws S_Urr S_File S_Sound.
Import ListNotations.
Local Open Scope R_scope.

(** multiplicities: constants, polynomials, tables with increasing breakpoints, sums and differences of them *)
Inductive usable_function : func R -> Prop :=
| uf_const c : usable_function (FConst c)
| uf_poly cs : usable_function (FPoly cs)
| uf_table t : sound_tab (fun _ : R => True) t -> usable_function (FTab t)
| uf_sum f g : usable_function f -> usable_function g -> usable_function (FSum f g)
| uf_diff f g : usable_function f -> usable_function g -> usable_function (FDiff f g).
(** the data of the file are well formed: no energy of the grid is repeated; distributions are of the kinds, and have the cumulative
    functions, of S_Sound *)
Record well_formed (F : fdesc) : Prop := mkUse {
  us_grid : strictly_increasing (fd_grid F);
  us_angle : sound_adist (fun _ : R => True) (fd_angle F);
  us_yields : Forall (fun d => usable_function (rd_yield d)) (fd_reactions F);
  us_laws : Forall (fun d => Forall (fun p => sound_law (fun _ : R => True) (fst p) /\ sound_tab (fun _ : R => True) (snd p)) (rd_laws d)) (fd_reactions F);
  us_nus : usable_function (fd_nu_total F) /\ usable_function (fd_nu_prompt F) /\ usable_function (fd_nu_delayed F);
  us_families : Forall (fun f => sound_tab (fun _ : R => True) (df_prob f) /\ sound_energy (fun _ : R => True) (df_energy f)) (fd_families F) }.

(** random numbers *)
Definition draws_in (ds : list R) : Prop := Forall (fun x => 0 < x < 1) ds.
(** a cross section: evaluable at every energy, never negative *)
Definition evaluable (x : xsec R) : Prop := forall E, exists v, xs_eval x E = Ok v /\ 0 <= v.
Definition has_value (f : func R) : Prop := forall E, exists v, feval f E = Ok v.
Definition nonneg_packet (p : packet R) : Prop :=
  0 <= total p /\ 0 <= elastic p /\ 0 <= inelastic p /\ 0 <= absorption p /\ 0 <= fission p /\ 0 <= capture p.
(** what a transport code asks of a nuclide: from the first grid energy on, its cross sections, with and without probability tables; for each reaction,
    cross section, multiplicity and outgoing neutron; elastic scattering with a free-gas target; multiplicities; delayed neutrons *)
Record answers_all (a : ace R) (F : fdesc) (n : neutron R) : Prop := mkAll {
  aa_packet : forall E, getR (fd_grid F) 0 <= E -> exists p, neutron_xs n E = Ok p /\ nonneg_packet p;
  aa_tables : forall E xi, getR (fd_grid F) 0 <= E -> xi < 1 -> urr_evaluate' (n_urr n) E xi = Ok None \/ exists p, urr_evaluate' (n_urr n) E xi = Ok (Some p) /\ nonneg_packet p;
  aa_reaction : forall d, In d (fd_reactions F) -> kept a (rd_mt d) -> exists r, neutron_reaction n (rd_mt d) = Ok r /\ evaluable (rx_xs r) /\ has_value (rx_yield r) /\
    (rd_y d <> 0 -> forall E ds, draws_in ds -> returns_or_waits (reaction_sample r E ds)) /\
    (rd_y d = 0 -> forall E ds, rx_threshold r <= E -> reaction_sample r E ds = Throw);
  aa_elastic : forall e E ds, e_angle e = adist_sample (n_elastic n) -> e_brd e = svt_sample -> draws_in ds -> returns_or_waits (elastic_sample e E ds);
  aa_nus : has_value (nu_total (f_nus (n_fission n))) /\ has_value (nu_prompt (f_nus (n_fission n))) /\ has_value (nu_delayed (f_nus (n_fission n)));
  aa_delayed : forall f, In f (f_families (n_fission n)) -> (forall E, exists v, tab_eval (df_prob f) E = Ok v) /\ forall E ds, draws_in ds -> returns_or_waits (el_sample (df_energy f) E ds) }.
