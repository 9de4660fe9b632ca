(** * Specification vocabulary for nuclides derived from another one (C104) *)
From Coq Require Import List ZArith.
From Verif Require Import Base M_Interp M_Tab1D M_Func M_Grid M_Packet M_PC M_Spectra M_Ace M_Neutron.
Import ListNotations.

Section Derive.
  Context {T : Type} {N : Num T}.
  (** no MT occurs twice in the file *)
  Definition distinct_mts (a : ace T) : Prop :=
    forall k k' mt, (0 <= k < Z.of_nat (nmt a))%Z -> (0 <= k' < Z.of_nat (nmt a))%Z -> xss_u32 a (MTR a + k) = Ok mt -> xss_u32 a (MTR a + k') = Ok mt -> k = k'.
  (** [n1] has every reaction of [n2], with the same MT, Q value, AWR, multiplicity and distribution (cross sections and thresholds may differ);
      elastic angular distribution, fission multiplicities and delayed families are the same *)
  Record same_physics (n1 n2 : neutron T) : Prop := mkSame {
    sp_elastic : n_elastic n1 = n_elastic n2; sp_nus : f_nus (n_fission n1) = f_nus (n_fission n2); sp_families : f_families (n_fission n1) = f_families (n_fission n2);
    sp_reactions : forall mt r2, neutron_reaction n2 mt = Ok r2 -> exists r1, neutron_reaction n1 mt = Ok r1 /\
      rx_mt r1 = rx_mt r2 /\ rx_q r1 = rx_q r2 /\ rx_awr r1 = rx_awr r2 /\ rx_yield r1 = rx_yield r2 /\ rx_dist r1 = rx_dist r2 }.
  (** the same answers to every query but the list of MTs *)
  Record answers_as (n n2 : neutron T) : Prop := mkAs {
    as_temperature : n_temperature n = n_temperature n2; as_fissile : n_fissile n = n_fissile n2; as_grid : n_grid n = n_grid n2;
    as_total : n_total n = n_total n2; as_disappearance : n_disappearance n = n_disappearance n2; as_elastic_xs : n_elastic_xs n = n_elastic_xs n2; as_heating : n_heating n = n_heating n2;
    as_fission_xs : n_fission_xs n = n_fission_xs n2; as_photon : n_photon n = n_photon n2;
    as_elastic : n_elastic n = n_elastic n2; as_fission : n_fission n = n_fission n2; as_urr : n_urr n = n_urr n2;
    as_has : forall mt, neutron_has n mt = neutron_has n2 mt; as_reaction : forall mt, neutron_reaction n mt = neutron_reaction n2 mt; as_packet : forall E, neutron_xs n E = neutron_xs n2 E }.
  Definition with_list (n : neutron T) (l : list Z) : neutron T :=
    mkNeutron (n_temperature n) (n_fissile n) (n_grid n) (n_total n) (n_disappearance n) (n_elastic_xs n) (n_heating n) (n_fission_xs n) (n_photon n) (n_elastic n) (n_fission n) (n_urr n) l (n_indices n) (n_reactions n).
End Derive.
