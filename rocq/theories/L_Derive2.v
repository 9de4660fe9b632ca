(** * Deriving from described files (C104) *)
From Coq Require Import Reals Lra Lia List ZifyBool ZifyNat Permutation Sorting.Sorted.
From Verif Require Import Base NumR L_Search L_SearchR M_Interp M_Tab1D M_Func M_Grid M_Packet M_PC M_OutE M_Spectra M_Kin M_Ace M_Neutron M_Laws S_Neutron S_Laws S_Urr S_File S_Derive
  L_Neutron L_Neutron2 L_Laws3 L_Laws5 L_File L_Derive.
Import ListNotations.
Local Open Scope R_scope.

Lemma combined_unique l d d' : combined l d -> combined l d' -> d = d'.
Proof.
  intros [(p & ->)|[L ->]] [(p' & E)|[L' ->]]; [injection E as -> _; reflexivity|cbn in L'; lia|subst l; cbn in L; lia|reflexivity].
Qed.
(** the reaction a lookup returns comes from the entry of the file with that MT *)
Lemma reaction_origin a F NB n mt r : describes a F -> neutron_of_ace NB a = Ok n -> neutron_reaction n mt = Ok r ->
  exists k d, In d (fd_reactions F) /\ rd_mt d = mt /\ reaction_at a (sizeZ (fd_grid F)) k d /\ reaction_of_ace a k (n_grid n) = Ok r.
Proof.
  intros D Hn Er. destruct (which_reaction _ _ _ _ _ _ _ _ _ Hn Er) as (k & (Bk & Mk & _) & Mr). destruct (entry_of a F D k Bk) as (d & Ed & HA & M'). unfold mtr_entry in *. rewrite Mk in M'. injection M' as M'.
  exists k, d. split; [eapply nth_error_In; exact Ed|]. split; [symmetry; exact M'|]. split; [exact HA|exact Mr].
Qed.
Lemma by_mt F d d' : NoDup (fd_mts F) -> In d (fd_reactions F) -> In d' (fd_reactions F) -> rd_mt d = rd_mt d' -> d = d'.
Proof.
  unfold fd_mts. induction (fd_reactions F) as [|x l IH]; intros ND I I' E; [destruct I|]. cbn [map] in ND. inversion ND as [|? ? N1 N2]; subst. destruct I as [->|I], I' as [->|I']; auto.
  - elim N1. rewrite E. apply in_map. exact I'.
  - elim N1. rewrite <- E. apply in_map. exact I.
Qed.
Lemma same_distribution a1 a2 k1 k2 g1 g2 n1 n2 d1 d2 r1 r2 : reaction_at a1 n1 k1 d1 -> reaction_at a2 n2 k2 d2 -> a_awr a1 = a_awr a2 -> rd_mt d1 = rd_mt d2 -> rd_q d1 = rd_q d2 -> rd_y d1 = rd_y d2 -> rd_laws d1 = rd_laws d2 ->
  reaction_of_ace a1 k1 g1 = Ok r1 -> reaction_of_ace a2 k2 g2 = Ok r2 -> rx_dist r1 = rx_dist r2.
Proof.
  intros A1 A2 W M Q Y L R1 R2. pose proof (ra_entries _ _ _ _ A1) as E1. pose proof (ra_entries _ _ _ _ A2) as E2.
  destruct (Req_dec (rd_y d1) 0) as [Z|Z].
  - apply (make_reaction_dist load_neutron absorption_law _ _ _ _ _ _ E1) in R1. apply (make_reaction_dist load_neutron absorption_law _ _ _ _ _ _ E2) in R2. rewrite <- Y in R2. rewrite Z in R1, R2.
    destruct (Reqb_spec 0 0) as [_|C]; [|elim C; reflexivity]. injection R1 as <-. injection R2 as <-. rewrite M. reflexivity.
  - destruct (reaction_dist_spec absorption_law a1 k1 g1 _ _ _ _ r1 E1 (ra_laws _ _ _ _ A1 Z) R1) as (x1 & C1 & P1 & N1). rewrite Y in Z.
    destruct (reaction_dist_spec absorption_law a2 k2 g2 _ _ _ _ r2 E2 (ra_laws _ _ _ _ A2 Z) R2) as (x2 & C2 & P2 & N2). rewrite <- L in C2. pose proof (combined_unique _ _ _ C1 C2) as <-.
    rewrite <- Y in Z, P2, N2. destruct (Rlt_le_dec 0 (rd_y d1)) as [S|S]; [rewrite P1, P2 by assumption; reflexivity|]. rewrite N1, N2 by lra. rewrite W, Q. reflexivity.
Qed.
Lemma described_distinct a F : describes a F -> distinct_mts a.
Proof.
  intros D k k' mt B B' E E'. destruct (entry_of a F D k B) as (d & Ed & _ & M). destruct (entry_of a F D k' B') as (d' & Ed' & _ & M'). unfold mtr_entry in *. rewrite E in M. rewrite E' in M'. injection M as M. injection M' as M'.
  destruct (de_reactions a F D) as (_ & _ & ND & _). unfold fd_mts in ND. assert (X : Z.to_nat k = Z.to_nat k'); [|lia].
  apply (proj1 (NoDup_nth_error (map rd_mt (fd_reactions F))) ND); [rewrite map_length; apply nth_error_Some; congruence|]. rewrite (map_nth_error rd_mt (Z.to_nat k) (fd_reactions F) Ed), (map_nth_error rd_mt (Z.to_nat k') (fd_reactions F) Ed'). congruence.
Qed.
Theorem derived_described a1 F1 a2 F2 NB1 NB : describes a1 F1 -> describes a2 F2 -> same_nuclide a1 F1 a2 F2 ->
  exists n1 n2 n, neutron_of_ace NB1 a1 = Ok n1 /\ neutron_of_ace NB a2 = Ok n2 /\ make_neutron_from absorption_law NB a2 n1 = Ok n /\ carries a2 F2 n2 /\ answers_as n n2 /\
    Sorted Z.le (n_mts n) /\ Permutation (n_mts n) (repeat 0%Z (length (fd_reactions F2)) ++ n_mts n2).
Proof.
  intros D1 D2 [SF SW SA S1 S2 S3 S4 SR]. destruct (file_carried a1 F1 NB1 D1) as (n1 & H1 & C1). destruct (file_carried a2 F2 NB D2) as (n2 & H2 & C2).
  destruct (derived_is_loaded load_neutron absorption_law load_delayed_law load_elastic_angle NB1 NB a1 a2 n1 n2 H1 H2 SF (described_distinct a2 F2 D2)) as (n & Hn & A & L1 & L2).
  { constructor.
    - rewrite (ca_angle _ _ _ C1), (ca_angle _ _ _ C2). exact SA.
    - rewrite (ca_nu _ _ _ C1), (ca_nu _ _ _ C2), S1, S2, S3. reflexivity.
    - rewrite (ca_families _ _ _ C1), (ca_families _ _ _ C2). exact S4.
    - intros mt r2 E2. destruct (reaction_origin a2 F2 NB n2 mt r2 D2 H2 E2) as (k2 & d2 & I2 & M2 & A2 & R2). destruct (SR d2 I2) as (d1 & I1 & Q1 & Q2 & Q3 & Q4 & Q5).
      assert (K2 : kept a2 mt).
      { intros X. destruct (a_fissile a2) eqn:E; [reflexivity|]. exfalso. destruct (ca_no_others _ _ _ C2 mt) as [_ Y]; [unfold fission_mt in X; cbn in X; lia|intros [_ J]; specialize (J X); congruence|congruence]. }
      assert (K1 : kept a1 (rd_mt d1)) by (unfold kept in *; rewrite SF, Q1, M2; exact K2).
      destruct (ca_reactions _ _ _ C1 d1 I1 K1) as (_ & r1 & E1 & _). exists r1. rewrite Q1, M2 in E1. split; [exact E1|].
      destruct (reaction_origin a1 F1 NB1 n1 mt r1 D1 H1 E1) as (k1 & d1' & I1' & M1 & A1 & R1). assert (d1' = d1) as ->.
      { destruct (de_reactions a1 F1 D1) as (_ & _ & ND & _). apply (by_mt F1); auto. congruence. }
      destruct (reaction_made a1 F1 (n_grid n1) (ca_grid _ _ _ C1) ltac:(destruct (de_count a1 F1 D1); lia) k1 d1 A1) as (q1 & P1 & RA1 & _). rewrite R1 in P1. injection P1 as <-.
      destruct (reaction_made a2 F2 (n_grid n2) (ca_grid _ _ _ C2) ltac:(destruct (de_count a2 F2 D2); lia) k2 d2 A2) as (q2 & P2 & RA2 & _). rewrite R2 in P2. injection P2 as <-.
      destruct RA1 as [m1 u1 w1 y1 _ _ _ _ _ _], RA2 as [m2 u2 w2 y2 _ _ _ _ _ _].
      split; [congruence|]. split; [congruence|]. split; [congruence|]. split; [congruence|].
      exact (same_distribution a1 a2 k1 k2 _ _ _ _ d1 d2 r1 r2 A1 A2 SW Q1 Q2 Q3 Q5 R1 R2). }
  exists n1, n2, n. repeat (split; [assumption|]). replace (length (fd_reactions F2)) with (nmt a2); [exact L2|].
  destruct (de_reactions a2 F2 D2) as (E & L & _). unfold nmt. change (nxs a2 3) with (NXS a2 4). rewrite wrap_id by (pose proof (L_Search.sizeZ_nonneg (fd_reactions F2)); lia). rewrite E. unfold sizeZ. lia.
Qed.
