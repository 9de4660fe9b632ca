(** * Specification: what the ESZ block of a file says about a nuclide *)
From Coq Require Import Reals List.
From Verif Require Import Base NumR L_SearchR M_Grid M_Ace M_Neutron S_Grid S_Neutron L_Grid L_Xs.
Import ListNotations.
Local Open Scope R_scope.

(** [x] tabulates [vals] on the grid [g] from its first energy on *)
Definition tabulates (g : egrid R) (x : xsec R) (vals : list R) : Prop :=
  x_grid x = g /\ x_vals x = vals /\ x_index x = 0%Z /\ x_single x = false /\ sizeZ vals = sizeZ (g_vals g).

(** the block at ESZ holds, one after the other, the energies and the total, disappearance and elastic cross sections and the heating
    numbers; the photon production cross section is at GPD, or zero if there is none *)
Definition principal (a : ace R) (n : neutron R) : Prop :=
  exists t d e h, let g := n_grid n in holds a (ESZ a) (g_vals g ++ t ++ d ++ e ++ h) /\ sizeZ (g_vals g) = nxs a 2 /\
    tabulates g (n_total n) t /\ tabulates g (n_disappearance n) d /\ tabulates g (n_elastic_xs n) e /\ tabulates g (n_heating n) h /\
    nonneg t /\ nonneg d /\ nonneg e /\
    (jxs a 11 = 0%Z -> forall E, xs_eval (n_photon n) E = Ok 0) /\
    (jxs a 11 <> 0%Z -> exists p, tabulates g (n_photon n) p /\ holds a (GPD a) p).
