(** * C104: deriving a nuclide at another temperature gives what loading that file in full gives *)
From Coq Require Import Reals Lra Lia List ZifyBool ZifyNat Permutation Sorting.Sorted.
From Verif Require Import Base NumR L_SearchR M_Interp M_Tab1D M_Func M_Grid M_Packet M_PC M_OutE M_Spectra M_Kin M_Ace M_Neutron M_Laws S_Neutron S_Laws S_Urr S_File S_Derive L_NeutronEx L_LawsEx L_File L_FileEx L_Derive L_Derive2.
Import ListNotations.
Local Open Scope R_scope.

(** in any arithmetic: [n1] loaded from one file, [n2] from another with the same physics; the object derived from [n1] with the second file answers every query as [n2] does.
    full claim: the list of MTs too. The derived list has one zero per reaction of the file in front (below) *)
Theorem C104_derived_answers_partial : forall T (N : Num T) NB1 NB (a1 a2 : ace T) n1 n2, neutron_of_ace NB1 a1 = Ok n1 -> neutron_of_ace NB a2 = Ok n2 -> a_fissile a1 = a_fissile a2 -> distinct_mts a2 -> same_physics n1 n2 ->
  exists n, make_neutron_from absorption_law NB a2 n1 = Ok n /\ answers_as n n2 /\ Sorted Z.le (n_mts n) /\ Permutation (n_mts n) (repeat 0%Z (nmt a2) ++ n_mts n2).
Proof. intros T N NB1 NB a1 a2 n1 n2. exact (derived_is_loaded load_neutron absorption_law load_delayed_law load_elastic_angle NB1 NB a1 a2 n1 n2). Qed.
Print Assumptions C104_derived_answers_partial.
(** in terms of the files: both laid out as the format says, the second with reactions of the first and the same distributions *)
Theorem C104_derived_from_files_partial : forall a1 F1 a2 F2 NB1 NB, describes a1 F1 -> describes a2 F2 -> same_nuclide a1 F1 a2 F2 ->
  exists n1 n2 n, neutron_of_ace NB1 a1 = Ok n1 /\ neutron_of_ace NB a2 = Ok n2 /\ make_neutron_from absorption_law NB a2 n1 = Ok n /\ carries a2 F2 n2 /\ answers_as n n2 /\
    Sorted Z.le (n_mts n) /\ Permutation (n_mts n) (repeat 0%Z (length (fd_reactions F2)) ++ n_mts n2).
Proof. exact derived_described. Qed.
Print Assumptions C104_derived_from_files_partial.
(** hence the list is wrong whenever the file has a reaction *)
Theorem C104_list_refuted : forall a1 F1 a2 F2 NB1 NB, describes a1 F1 -> describes a2 F2 -> same_nuclide a1 F1 a2 F2 -> fd_reactions F2 <> [] ->
  exists n1 n2 n, neutron_of_ace NB1 a1 = Ok n1 /\ neutron_of_ace NB a2 = Ok n2 /\ make_neutron_from absorption_law NB a2 n1 = Ok n /\ n_mts n <> n_mts n2 /\ In 0%Z (n_mts n).
Proof.
  intros a1 F1 a2 F2 NB1 NB D1 D2 S NE. destruct (derived_described a1 F1 a2 F2 NB1 NB D1 D2 S) as (n1 & n2 & n & H1 & H2 & H & _ & _ & _ & P). exists n1, n2, n. repeat (split; [assumption|]).
  destruct (fd_reactions F2) as [|d l]; [elim NE; reflexivity|]. cbn [length repeat app] in P. split.
  - intros E. rewrite E in P. apply Permutation_length in P. cbn [length] in P. rewrite app_length in P. lia.
  - apply (Permutation_in _ (Permutation_sym P)). left. reflexivity.
Qed.
Print Assumptions C104_list_refuted.
(** the example file of C102 and the same nuclide at 600 K with another total cross section *)
Example C104_case : exists t, describes (fxs 4 300) (fxds 4 t) /\ describes (fxs 7 600) (fxds 7 t) /\ same_nuclide (fxs 4 300) (fxds 4 t) (fxs 7 600) (fxds 7 t) /\ fd_reactions (fxds 7 t) <> [].
Proof.
  destruct half_tab as (t & H). exists t. split; [apply fxs_describes; [lra|exact H]|]. split; [apply fxs_describes; [lra|exact H]|]. split; [|discriminate]. constructor; try reflexivity. intros d I. exists d.
  repeat (split; [assumption || reflexivity|]). reflexivity.
Qed.
Print Assumptions C104_case.
