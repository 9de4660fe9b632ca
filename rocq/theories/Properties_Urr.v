(** * C65, C38: the unresolved-resonance block and the smooth cross sections behind it *)
From Coq Require Import Reals Lra Lia List ZifyBool ZifyNat.
From Verif Require Import Base NumR L_Search L_SearchR M_Interp M_PC M_Grid M_Ace M_Neutron S_Neutron S_Urr L_Neutron L_Urr2 L_NeutronEx.
Import ListNotations.
Local Open Scope R_scope.

Theorem C65_probability_tables : forall a el ca fi he rs n interp inel absorb factors energy ts xi xa, jxs a 22 <> 0%Z -> u32 (sizeZ energy) -> u32 n -> (interp = 2 \/ interp = 5)%Z ->
  (- 2 ^ 31 <= inel < 2 ^ 31)%Z -> (- 2 ^ 31 <= absorb < 2 ^ 31)%Z -> (- 2 ^ 31 <= factors < 2 ^ 31)%Z -> length ts = length energy -> Forall (rows_ok n) ts ->
  competes inel rs xi -> competes absorb rs xa -> holds a (jxs a 22 - 1) (urr_block n interp inel absorb factors energy ts) ->
  exists u, make_urr a el ca fi he rs = Ok u /\ u_energy u = energy /\ (u_loglog u = true <-> interp = 5%Z) /\ (u_factors u = true <-> factors = 1%Z) /\
    u_elastic u = el /\ u_capture u = ca /\ u_fission u = fi /\ u_heating u = he /\ u_inelastic u = xi /\ u_absorption u = xa /\ Forall2 (rows_kept n) ts (u_ptables u).
Proof. exact urr_read. Qed.
Print Assumptions C65_probability_tables.
Example C65_probability_tables_applies : forall el ca fi he, exists a u, make_urr a el ca fi he [] = Ok u /\ u_energy u = [1; 2] /\ u_loglog u = true /\ u_factors u = true.
Proof.
  intros. pose (r := mkRows [/ 2; 1] [3; 4] [1; 1] [0; 1] [2; 2] [-1; 0]).
  assert (K : rows_ok 2 r).
  { constructor; try reflexivity; cbn.
    - apply is_sorted_increasing. cbn. rnum. destruct (Rltb_spec 1 (/ 2)); [lra|reflexivity].
    - unfold getR. cbn. lra.
    - unfold getR. cbn. rewrite Rminus_diag_eq by reflexivity. rewrite Rabs_R0. lra.
    - repeat (apply Forall_cons; [lra|]). constructor. }
  pose (a := mkAce 0 1 1 false [] (repeat 0%Z 22 ++ [1%Z]) (urr_block 2 5 0 0 1 [1; 2] [r; r])).
  assert (J : jxs a 22 = 1%Z) by reflexivity.
  assert (H0 : holds a (jxs a 22 - 1) (urr_block 2 5 0 0 1 [1; 2] [r; r])).
  { rewrite J. exists [], []. split; [rewrite app_nil_r; reflexivity|reflexivity]. }
  destruct (C65_probability_tables a el ca fi he [] 2 5 0 0 1 [1; 2] [r; r] None None) as (u & E & A & B & C & _).
  - rewrite J. discriminate.
  - unfold u32, sizeZ. cbn [length]. lia.
  - unfold u32. lia.
  - lia.
  - lia.
  - lia.
  - lia.
  - reflexivity.
  - apply Forall_cons; [exact K|]. apply Forall_cons; [exact K|constructor].
  - left. split; [lia|reflexivity].
  - left. split; [lia|reflexivity].
  - exact H0.
  - exists a, u. split; [exact E|]. split; [exact A|]. split; [apply B; reflexivity|apply C; reflexivity].
Qed.

(** ** C38: the factors of a table multiply the elastic, MT 102, fission and heating cross sections of the same nuclide *)
Theorem C38_smooth_cross_sections : forall load absorb ld le NB (a : ace R) n, make_neutron load absorb ld le NB a = Ok n ->
  u_elastic (n_urr n) = n_elastic_xs n /\ u_heating (n_urr n) = n_heating n /\ u_fission (n_urr n) = n_fission_xs n /\
  ((exists r, neutron_reaction n 102 = Ok r /\ u_capture (n_urr n) = rx_xs r) \/ (neutron_has n 102 = Ok false /\ make_xs_single 0 (n_grid n) = Ok (u_capture (n_urr n)))).
Proof. intros load absorb ld le NB a n H. destruct (neutron_parts _ _ _ _ _ _ _ H) as (g & xs & mts & idx & rs & f & _ & _ & _ & _ & En). exact (finish_urr _ _ _ _ _ _ _ _ _ _ _ En). Qed.
Print Assumptions C38_smooth_cross_sections.
Theorem C38_smooth_cross_sections_derived : forall absorb NB (a : ace R) n0 n, make_neutron_from absorb NB a n0 = Ok n ->
  u_elastic (n_urr n) = n_elastic_xs n /\ u_heating (n_urr n) = n_heating n /\ u_fission (n_urr n) = n_fission_xs n /\
  ((exists r, neutron_reaction n 102 = Ok r /\ u_capture (n_urr n) = rx_xs r) \/ (neutron_has n 102 = Ok false /\ make_xs_single 0 (n_grid n) = Ok (u_capture (n_urr n)))).
Proof.
  intros absorb NB a n0 n H. unfold make_neutron_from in H. repeat match type of H with bind _ _ = Ok _ => apply bind_ok in H as (? & _ & H) | (let '(_, _) := ?x in _) = Ok _ => destruct x end.
  exact (finish_urr _ _ _ _ _ _ _ _ _ _ _ H).
Qed.
Print Assumptions C38_smooth_cross_sections_derived.
Example C38_smooth_applies : forall load absorb ld el, exists n, make_neutron load absorb ld (fun _ => Ok el) 1 (ex 102) = Ok n.
Proof. intros. destruct (ex_neutron load absorb ld el) as (n & r & Hn & _). eauto. Qed.
