(** * Property C81: principal cross sections *)
From Coq Require Import Reals Lra Lia List ZifyBool ZifyNat.
From Verif Require Import Base NumR L_SearchR M_Interp M_PC M_Spectra M_OutE M_Grid M_Ace M_Neutron M_Laws S_Grid S_Neutron S_Principal L_Grid L_Xs L_Neutron L_Principal L_NeutronEx.
Import ListNotations.
Local Open Scope R_scope.

(** ** C81: whatever the loaders of the distributions do *)
Theorem C81_read_from_the_file : forall load absorb load_delayed load_elastic NB a n, fits a -> bins_ok NB -> (nxs a 2 < 2 ^ 30)%Z ->
  make_neutron load absorb load_delayed load_elastic NB a = Ok n ->
  principal a n /\ n_temperature n = a_temperature a /\ n_fissile n = a_fissile a.
Proof. exact neutron_principal. Qed.
Print Assumptions C81_read_from_the_file.
(** an object derived from another one takes its cross sections and temperature from the new file, and keeps the elastic angular
    distribution of the other *)
Theorem C81_derived : forall absorb NB a n0 n, fits a -> bins_ok NB -> (nxs a 2 < 2 ^ 30)%Z -> make_neutron_from absorb NB a n0 = Ok n ->
  principal a n /\ n_temperature n = a_temperature a /\ n_fissile n = n_fissile n0 /\ n_elastic n = n_elastic n0.
Proof. exact neutron_from_principal. Qed.
Print Assumptions C81_derived.
Example C81_nonvacuous : forall load absorb ld el, fits (ex 102) /\ (nxs (ex 102) 2 < 2 ^ 30)%Z /\ exists n, make_neutron load absorb ld (fun _ => Ok el) 1 (ex 102) = Ok n.
Proof. intros. split; [apply ex_fits|]. split; [cbn; lia|]. destruct (ex_neutron load absorb ld el) as (n & r & Hn & _). eauto. Qed.
