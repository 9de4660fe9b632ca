(** * C85: what the energy grid says about unresolved resonances *)
From Coq Require Import Reals Lra Lia List ZifyBool ZifyNat.
From Verif Require Import Base NumR L_Search L_SearchR M_Grid M_Ace M_Neutron M_GridUrr S_Grid S_Neutron L_PC L_Ace L_Laws L_Neutron L_Neutron2 L_Principal L_Urr L_Legendre L_NeutronEx.
Import ListNotations.
Local Open Scope R_scope.

(** For a file with probability tables, the grid reports the first energy of the tables, ... *)
Theorem C85_start_is_first_table_energy : forall (a : ace R) el ca fi he rs u, jxs a 22 <> 0%Z -> (jxs a 22 < 2 ^ 31)%Z -> make_urr a el ca fi he rs = Ok u -> u_energy u <> [] ->
  grid_urr_of_ace a = Ok (getR (u_energy u) 0).
Proof.
  intros a el ca fi he rs u J0 J1 H NE. unfold make_urr in H. destruct (Z.eqb_spec (jxs a 22) 0) as [E|_]; [contradiction|].
  apply bind_ok in H as (ne & E0 & H). apply bind_ok in H as (np & _ & H). apply bind_ok in H as (it & _ & H). apply bind_ok in H as (fl & _ & H). apply bind_ok in H as (ab & _ & H). apply bind_ok in H as (fa & _ & H).
  apply bind_ok in H as (en & Een & H). apply bind_ok in H as (pts & _ & H). apply bind_ok in H as (q & _ & H). apply bind_ok in H as (i1 & _ & H). apply bind_ok in H as (i2 & _ & H).
  apply L_Legendre.Ok_eq in H. subst u. cbn [u_energy] in *. apply vec_holds in Een as [Hh _]. unfold grid_urr_of_ace. rewrite (proj2 (Z.eqb_neq _ _) J0).
  assert (P : (0 <= LUNR a)%Z). { unfold xss_u32 in E0. apply bind_ok in E0 as (x & Ex & _). unfold xss in Ex. unfold atZ in Ex. destruct (Z.leb_spec 0 (LUNR a)); [assumption|discriminate]. }
  unfold LUNR in *. assert (W : wrap32 (jxs a 22 - 1 + 6) = (jxs a 22 - 1 + 6)%Z) by (apply Z.mod_small; lia). rewrite W. clear W. destruct en as [|e en']; [contradiction|].
  rewrite (holds_xss _ _ _ _ Hh). reflexivity.
Qed.
Print Assumptions C85_start_is_first_table_energy.
(** the grid of a file is made exactly when its start energy can be read and its energies are accepted *)
Theorem C85_grid_made : forall (a : ace R) NB g, grid_of_ace a NB = Ok g <-> exists s vals, grid_urr_of_ace a = Ok s /\ xss_vec a (JXS a 1 - 1) (NXS a 3) = Ok vals /\ make_grid_ace vals NB = Ok g.
Proof.
  intros a NB g. change (JXS a 1 - 1)%Z with (ESZ a). change (NXS a 3) with (nxs a 2). unfold grid_of_ace, grid_urr_of_ace. split.
  - intros H. apply bind_ok in H as (vals & Ev & H). apply bind_ok in H as (s & Es & H). destruct (jxs a 22 =? 0)%Z; [exists (nofZ 50000)|exists s]; exists vals; repeat split; assumption.
  - intros (s & vals & Es & Ev & H). rewrite Ev. cbn [bind]. destruct (jxs a 22 =? 0)%Z; [exact H|]. rewrite Es. exact H.
Qed.
Print Assumptions C85_grid_made.
(** ... and has_urr says whether the tables start below the end of the grid *)
Theorem C85_has_urr : forall (a : ace R) NB g el ca fi he rs u, grid_of_ace a NB = Ok g -> jxs a 22 <> 0%Z -> (jxs a 22 < 2 ^ 31)%Z -> make_urr a el ca fi he rs = Ok u -> u_energy u <> [] ->
  exists s b, grid_urr_of_ace a = Ok s /\ has_urr s g = Ok b /\ (b = true <-> getR (u_energy u) 0 < getR (g_vals g) (sizeZ (g_vals g) - 1)).
Proof.
  intros a NB g el ca fi he rs u HG J0 J1 HU NE. rewrite (C85_start_is_first_table_energy a el ca fi he rs u J0 J1 HU NE). do 2 eexists. split; [reflexivity|].
  assert (S : (0 < sizeZ (g_vals g))%Z).
  { unfold grid_of_ace in HG. apply bind_ok in HG as (vals & _ & HG). apply bind_ok in HG as (s & _ & HG). unfold make_grid_ace in HG. apply bind_ok in HG as (u1 & _ & HG). apply bind_ok in HG as (f & Hf & HG).
    destruct (nleb f (nofZ 0)); [discriminate|]. unfold hash_grid in HG. apply bind_ok in HG as (f2 & Hf2 & HG). apply bind_ok in HG as (b2 & _ & HG). apply bind_ok in HG as (pt & _ & HG). apply L_Legendre.Ok_eq in HG. subst g. cbn [g_vals].
    destruct vals; [discriminate|]. unfold sizeZ. cbn [length]. lia. }
  unfold has_urr. rewrite backR_R by assumption. cbn [bind]. split; [reflexivity|]. apply Rltb_true.
Qed.
Print Assumptions C85_has_urr.
(** Without tables has_urr is false up to 50 GeV ... *)
Theorem C85_without_tables_partial : forall (a : ace R) g, jxs a 22 = 0%Z -> (0 < sizeZ (g_vals g))%Z -> getR (g_vals g) (sizeZ (g_vals g) - 1) <= 50000 ->
  exists s, grid_urr_of_ace a = Ok s /\ has_urr s g = Ok false.
Proof.
  intros a g J S H. exists 50000. unfold grid_urr_of_ace, has_urr. rewrite J. split; [reflexivity|]. rewrite backR_R by assumption. cbn [bind]. f_equal. apply Rltb_false. exact H.
Qed.
Print Assumptions C85_without_tables_partial.
(** ... and true beyond *)
Theorem C85_without_tables_refuted : forall (a : ace R) g, jxs a 22 = 0%Z -> (0 < sizeZ (g_vals g))%Z -> 50000 < getR (g_vals g) (sizeZ (g_vals g) - 1) ->
  exists s, grid_urr_of_ace a = Ok s /\ has_urr s g = Ok true.
Proof.
  intros a g J S H. exists 50000. unfold grid_urr_of_ace, has_urr. rewrite J. split; [reflexivity|]. rewrite backR_R by assumption. cbn [bind]. f_equal. apply Rltb_true. exact H.
Qed.
Print Assumptions C85_without_tables_refuted.
(** A grid made from a vector reports whatever its memory held before *)
Theorem C85_vector_grid_refuted : forall (vals : list R) NB g, make_grid vals NB = Ok g -> (0 < sizeZ (g_vals g))%Z ->
  (exists garbage, has_urr (grid_urr_of_vector garbage vals) g = Ok true) /\ (exists garbage, has_urr (grid_urr_of_vector garbage vals) g = Ok false).
Proof.
  intros vals NB g _ S. unfold has_urr, grid_urr_of_vector. rewrite backR_R by assumption. cbn [bind]. set (m := getR _ _). split.
  - exists (m - 1). f_equal. apply Rltb_true. lra.
  - exists m. f_equal. apply Rltb_false. lra.
Qed.
Print Assumptions C85_vector_grid_refuted.
(** A file whose tables have two energies: has_urr is true, yet the tables never give a cross section *)
Theorem C85_two_energies_refuted : forall el ca fi he rs, exists u g s, make_urr ex2 el ca fi he rs = Ok u /\ grid_of_ace ex2 1 = Ok g /\ grid_urr_of_ace ex2 = Ok s /\ has_urr s g = Ok true /\
  forall E i xi, urr_evaluate u E i xi = Ok None.
Proof.
  intros el ca fi he rs. destruct (ex2_urr el ca fi he rs) as (u & Hu & He). destruct (ex_grid 102) as (g & Hg & Vg). exists u, g, 1. split; [exact Hu|]. split; [exact Hg|]. split; [reflexivity|]. split.
  - unfold has_urr. rewrite Vg. change (@backR R exg) with (Ok 2). cbn [bind]. f_equal. apply Rltb_true. lra.
  - intros E i xi. apply urr_eval_none. left. rewrite He. cbn. lia.
Qed.
Print Assumptions C85_two_energies_refuted.
Example C85_nonvacuous : forall el ca fi he rs, jxs ex2 22 <> 0%Z /\ (jxs ex2 22 < 2 ^ 31)%Z /\ exists u, make_urr ex2 el ca fi he rs = Ok u /\ u_energy u <> [].
Proof. intros. split; [cbn; lia|]. split; [cbn; lia|]. destruct (ex2_urr el ca fi he rs) as (u & Hu & He). exists u. split; [exact Hu|]. rewrite He. discriminate. Qed.
