(** * Specification: well-formed secondary distributions, in any arithmetic
    [P] says which numbers can be compared (all reals; all doubles but NaN); [bins_ok]: one of the 33 boundaries is selected for every draw. *)
From Coq Require Import List ZArith.
From Verif Require Import Base M_Interp M_Tab1D M_PC M_OutE M_Spectra M_Kin M_Laws S_Tab1D.
Import ListNotations.

(** the sampler returned a value, or used up the random numbers it was given: it neither threw nor read outside its data *)
Definition returns_or_waits {A} (r : res A) : Prop := match r with Ok _ | NoDraw => True | _ => False end.

Section Sound.
  Context {T : Type} {N : Num T} (P : T -> Prop).
  (** a random number: 0 < xi < 1 *)
  Definition unit_draw (x : T) : Prop := P x /\ nltb (nofZ 0) x = true /\ nltb x (nofZ 1) = true.
  (** a tabulated density accepted by its constructor whose first stored CDF entry is not positive *)
  Definition sound_pc (t : pctable T) : Prop :=
    (exists values pdf cdf i, make_pc values pdf cdf i = Ok t /\ Forall P cdf) /\ exists c0, atZ (pc_cdf t) 0 = Ok c0 /\ P c0 /\ nltb (nofZ 0) c0 = false.
  (** a tabulated function with increasing breakpoints that end at its last point *)
  Definition sound_tab (t : tab T) : Prop :=
    exists NBT INT x y, valid_breakpoints NBT (sizeZ x) /\ (sizeZ x < 2 ^ 64)%Z /\ Forall P x /\ make_tab NBT INT x y = Ok t.
  (** an energy table with one sound angular table per energy *)
  Definition sound_eat (t : eat T) : Prop :=
    sound_pc (mkPC (ea_energy t) (ea_pdf t) (ea_cdf t) (ea_interp t)) /\ length (ea_angles t) = length (ea_energy t) /\ Forall sound_pc (ea_angles t).
  (** an energy table with one pair of Kalbach parameters per energy, whose sampled energies are numbers *)
  Definition sound_kt (t : kt T) : Prop :=
    sound_pc (mkPC (k_energy t) (k_pdf t) (k_cdf t) (k_interp t)) /\ Forall P (k_energy t) /\ length (k_R t) = length (k_energy t) /\ length (k_A t) = length (k_energy t) /\
    forall xi h, unit_draw xi -> k_sample t xi = Ok h -> P h.

  Inductive sound_angle : alaw T -> Prop :=
  | sa_isotropic : sound_angle isotropic
  | sa_bins bounds b : make_bins bounds = Ok b -> sound_angle (angle_bins b)
  | sa_table t : sound_pc t -> sound_angle (angle_table t).
  Definition sound_adist (d : adist T) : Prop :=
    exists energy laws, make_adist energy laws = Ok d /\ energy <> [] /\ Forall P energy /\ Forall sound_angle laws.
  (** energy laws: every law of the ACE format the library reads but equiprobable bins (1) and general evaporation (5), which read out of range (C24) *)
  Inductive sound_energy : elaw T -> Prop :=
  | se_level d : sound_energy (level_law d)
  | se_photon d : sound_energy (dphoton_law d)
  | se_tabular energy tables d : make_tabe energy tables = Ok d -> (2 <= sizeZ energy)%Z -> Forall P energy -> Forall sound_pc tables -> sound_energy (tabe_law d)
  | se_maxwell t U : sound_tab t -> sound_energy (mw_law (t, U))
  | se_evaporation t U : sound_tab t -> sound_energy (ev_law (t, U))
  | se_watt ta tb U : sound_tab ta -> sound_tab tb -> sound_energy (watt_law (mkWatt (tab_eval ta) (tab_eval tb) U)).
  Inductive sound_law : aelaw T -> Prop :=
  | sl_uncorrelated ad e : sound_adist ad -> sound_energy e -> sound_law (uncor_law (mkUC ad e))
  | sl_kalbach energy tables d : make_kal energy tables = Ok d -> (2 <= sizeZ energy)%Z -> Forall P energy -> Forall sound_kt tables -> sound_law (kal_law d)
  | sl_tabular energy tables d : make_tea energy tables = Ok d -> (2 <= sizeZ energy)%Z -> Forall P energy -> Forall sound_eat tables -> sound_law (tea_law d)
  | sl_nbody d : sound_law (nbody_law d).
  (** a distribution: a law, or a mixture of laws, in the laboratory or in the centre of mass *)
  Inductive sound_dist : aelaw T -> Prop :=
  | sd_law d : sound_law d -> sound_dist d
  | sd_mixture l : l <> [] -> Forall (fun p => sound_law (fst p) /\ sound_tab (snd p)) l -> sound_dist (multi_law (mkMD (map fst l) (map (fun p => tab_eval (snd p)) l)))
  | sd_cm awr q d : sound_dist d -> sound_dist (cm_law awr q d).
End Sound.
