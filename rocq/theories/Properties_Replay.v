(** * C91: a sampler depends on the random numbers it consumes and on nothing that follows them *)
From Coq Require Import Reals Lra Lia List.
From Verif Require Import Base NumR NumF M_Interp M_Tab1D M_Func M_Grid M_PC M_Legendre M_OutE M_Spectra M_Kin M_Doppler M_Thermal M_Ace M_Neutron M_Laws L_Neutron S_Replay L_Replay L_Replay2 L_LawsEx Properties_Laws.
Import ListNotations.

(** every theorem here holds for any arithmetic [N] (the reals, and binary64 with any mathematical library) *)

(** one reaction of a file *)
Theorem C91_reaction : forall T (N : Num T) (a : ace T) i g r E, reaction_of_ace a i g = Ok r -> replayable (reaction_sample r E).
Proof. intros T N. exact reaction_replay. Qed.
Print Assumptions C91_reaction.
(** everything a nuclide samples: its reactions, its prompt fission spectrum, its delayed families and its elastic cosines,
    whether the nuclide was read from a file or derived from another one and a file *)
Theorem C91_neutron : forall T (N : Num T) (n : neutron T), neutron_obj load_neutron absorption_law load_delayed_law load_elastic_angle n ->
  (forall mt r E, neutron_reaction n mt = Ok r -> replayable (reaction_sample r E)) /\ (forall E, replayable (ae_sample (f_spectrum (n_fission n)) E)) /\
  (forall f E, In f (f_families (n_fission n)) -> replayable (el_sample (df_energy f) E)) /\ (forall E, replayable (adist_sample (n_elastic n) E)).
Proof. intros T N. exact neutron_replay. Qed.
Print Assumptions C91_neutron.
(** free-gas and resonance-corrected target velocities, and elastic scattering with either *)
Theorem C91_target : forall T (N : Num T) xs (Ein kT awr : T), replayable (svt_sample Ein kT awr) /\ replayable (dbrc_sample xs Ein kT awr).
Proof. intros T N xs Ein kT awr. split; [apply rp_svt|apply rp_dbrc]. Qed.
Print Assumptions C91_target.
Theorem C91_elastic : forall T (N : Num T) (n : neutron T) (e : elastic_obj T) E, neutron_obj load_neutron absorption_law load_delayed_law load_elastic_angle n ->
  (forall x, e_angle e x = adist_sample (n_elastic n) x) -> (e_brd e = svt_sample \/ exists xs, e_brd e = dbrc_sample xs) -> replayable (elastic_sample e E).
Proof.
  intros T N n e E O A B. apply rp_elastic; [destruct B as [-> |[xs ->]]; [apply rp_svt|apply rp_dbrc]|]. rewrite A. apply neutron_replay, O.
Qed.
Print Assumptions C91_elastic.
(** thermal scattering *)
Theorem C91_thermal : forall T (N : Num T) (c : coh T) (i : inco T) (d : inin T) E, replayable (coh_sample c E) /\ replayable (inco_sample i E) /\ replayable (inin_sample d E).
Proof. intros T N c i d E. split; [apply rp_coh|]. split; [apply rp_inco|apply rp_inin]. Qed.
Print Assumptions C91_thermal.
(** the distributions a program can build itself *)
Theorem C91_angular : forall T (N : Num T) (t : pctable T) (b : list T) (d : legd T), replayable (al_sample isotropic) /\ replayable (al_sample (angle_table t)) /\ replayable (al_sample (angle_bins b)) /\ replayable (leg_sample d).
Proof. intros T N t b d. split; [apply rp_isotropic|]. split; [apply rp_angle_table|]. split; [apply rp_angle_bins|apply rp_leg]. Qed.
Print Assumptions C91_angular.
Theorem C91_energies : forall T (N : Num T) (a : tabe T) (b : ebins T) (c : gevap T) (d : watt T) temp (U E : T),
  replayable (te_sample a E) /\ replayable (eb_sample b E) /\ replayable (ge_sample c E) /\ replayable (w_sample d E) /\ replayable (mw_sample temp U E) /\ replayable (ev_sample temp U E).
Proof. intros T N a b c d temp U E. split; [apply rp_te|]. split; [apply rp_eb|]. split; [apply rp_ge|]. split; [apply rp_w|]. split; [apply rp_mw|apply rp_ev]. Qed.
Print Assumptions C91_energies.
(** ... and combine, of replayable parts *)
Theorem C91_composite : forall T (N : Num T) (E : T),
  (forall a : adist T, (forall l, In l (ad_laws a) -> replayable (al_sample l)) -> replayable (adist_sample a E)) /\
  (forall d : uncor T, replayable (adist_sample (uc_angle d) E) -> replayable (el_sample (uc_energy d) E) -> replayable (uc_sample d E)) /\
  (forall m : multi T, (forall d, In d (md_dists m) -> replayable (ae_sample d E)) -> replayable (md_sample m E)) /\
  (forall (d : aelaw T) awr, replayable (ae_sample d E) -> replayable (cm_sample (ae_sample d) awr E)) /\
  (forall (k : kal T) (t : tea T) (b : nbody T), replayable (kal_sample k E) /\ replayable (tea_sample t E) /\ replayable (nb_sample b E)).
Proof.
  intros T N E. split; [intros a H; apply rp_adist, Forall_forall, H|]. split; [intros d; apply rp_uc|]. split; [intros m H; apply rp_md, Forall_forall, H|]. split; [intros d awr; apply rp_cm|].
  intros k t b. split; [apply rp_kal|]. split; [apply rp_tea|apply rp_nb].
Qed.
Print Assumptions C91_composite.
(** consequence: on the same stream, a longer supply of random numbers never changes a result already obtained *)
Theorem C91_more_numbers : forall T A (s : rand T A) ds v rest more, replayable s -> s ds = Ok (v, rest) -> s (ds ++ more) = Ok (v, rest ++ more).
Proof.
  intros T A s ds v rest more H E. specialize (H ds). rewrite E in H. destruct H as (u & -> & H). rewrite <- app_assoc. apply H.
Qed.
Print Assumptions C91_more_numbers.

Local Open Scope R_scope.
Example C91_nonvacuous : exists r mu e, reaction_of_ace (exl 1 10) 0 exl_grid = Ok r /\ forall rest, reaction_sample r 3 ([1/4; 3/4] ++ rest) = Ok ((mu, e), rest).
Proof.
  destruct (C76_case 1 (or_introl eq_refl)) as (r & mu & e & _ & Er & _ & S). exists r, mu, e. split; [exact Er|]. intros rest.
  exact (C91_more_numbers _ _ _ _ _ _ rest (C91_reaction _ _ _ _ _ _ 3 Er) S).
Qed.
