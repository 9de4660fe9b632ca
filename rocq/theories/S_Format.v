(** * Specification vocabulary: the object the loaders read, whichever format the file came in (C105) *)
From Coq Require Import List ZArith.
From Verif Require Import Base M_Ident M_AceBin M_Ace M_Neutron M_Thermal S_Derive.
Import ListNotations.
Local Open Scope Z_scope.

Section Format.
  Context {T : Type} {N : Num T}.
  (** ace.hpp 312-325: the loaders (M_Neutron, M_Laws, M_Thermal) use ZAID, AWR, temperature, fissile flag, NXS, JXS and XSS of an ACE object;
      [dec] gives the number a double's 64 bits stand for *)
  Variable dec : Z -> T.
  Definition ace_of_file (f : acefile) : ace T :=
    mkAce (zaid_number (f_zaid f)) (dec (f_awr f)) (dec (f_temperature f)) (f_fissile f) (f_nxs f) (f_jxs f) (map dec (f_xss f)).
  (** the same nuclide but for the temperature it reports *)
  Record same_but_temperature_n (n n' : neutron T) : Prop := mkSBT {
    st_fissile : n_fissile n' = n_fissile n; st_grid : n_grid n' = n_grid n; st_total : n_total n' = n_total n; st_disappearance : n_disappearance n' = n_disappearance n;
    st_elastic_xs : n_elastic_xs n' = n_elastic_xs n; st_heating : n_heating n' = n_heating n; st_fission_xs : n_fission_xs n' = n_fission_xs n; st_photon : n_photon n' = n_photon n;
    st_elastic : n_elastic n' = n_elastic n; st_fission : n_fission n' = n_fission n; st_urr : n_urr n' = n_urr n; st_mts : n_mts n' = n_mts n;
    st_has : forall mt, neutron_has n' mt = neutron_has n mt; st_reaction : forall mt, neutron_reaction n' mt = neutron_reaction n mt; st_packet : forall E, neutron_xs n' E = neutron_xs n E }.
  Record same_but_temperature_t (t t' : tsl T) : Prop := mkSBTt {
    tt_zaid : t_zaid t' = t_zaid t; tt_awr : t_awr t' = t_awr t; tt_has_coh : t_has_coh t' = t_has_coh t; tt_has_inc : t_has_inc t' = t_has_inc t;
    tt_coh : t_coh t' = t_coh t; tt_inc : t_inc t' = t_inc t; tt_inel : t_inel t' = t_inel t }.
End Format.
