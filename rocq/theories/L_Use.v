(** * A nuclide loaded from a well-formed file answers every query (C103) *)
From Coq Require Import Reals Lra Lia List ZifyBool ZifyNat.
From Verif Require Import Base NumR L_Search L_SearchR M_Interp M_Tab1D M_Func M_Grid M_Packet M_PC M_OutE M_Spectra M_Kin M_Ace M_Neutron M_Laws S_Grid S_Neutron S_Laws S_Urr S_File S_Sound S_Use
  L_PC L_Grid L_Xs L_Neutron L_Neutron2 L_Neutron3 L_Neutron4 L_Neutron5 L_Urr L_Laws5 L_Sound L_Sound2 L_File.
Import ListNotations.
Local Open Scope R_scope.

Lemma evaluable_good g x : grid_ok (g_vals g) -> good g x -> evaluable x.
Proof. intros G [X P] E. assert (K : xs_ok x) by (destruct X; assumption). destruct (xs_eval_spec x E K) as (v & Ev & V). exists v. split; [exact Ev|]. exact (xs_value_nonneg x E v K P V). Qed.
Lemma usable_value f : usable_function f -> has_value f.
Proof.
  induction 1 as [c|cs|t H|f g _ If _ Ig|f g _ If _ Ig]; intros E; cbn [feval].
  - eexists; reflexivity.
  - eexists; reflexivity.
  - exact (tab_ok any NumR_order t E H Logic.I).
  - destruct (If E) as (u & ->), (Ig E) as (v & ->). eexists; reflexivity.
  - destruct (If E) as (u & ->), (Ig E) as (v & ->). eexists; reflexivity.
Qed.
Lemma units ds : draws_in ds -> Forall (unit_draw any) ds.
Proof. apply Forall_impl. intros x. apply unit_R. Qed.
Lemma fine_returns {A} (s : rand R A) ds : fine any s -> draws_in ds -> returns_or_waits (s ds).
Proof. intros F D. specialize (F ds (units _ D)). unfold returns_or_waits. destruct (s ds) as [[? ?]| | |]; auto. Qed.

Section Whole.
  Variables (a : ace R) (F : fdesc) (NB : nat) (n : neutron R).
  Hypotheses (D : describes a F) (W : well_formed F) (B : bins_ok NB) (FI : fits a) (Hn : neutron_of_ace NB a = Ok n) (C : carries a F n).
  Let O : held load_neutron absorption_law load_delayed_law load_elastic_angle n := held_file _ _ _ _ NB a n FI B Hn.
  Let SI : strictly_increasing (g_vals (n_grid n)). Proof. rewrite (ca_grid _ _ _ C). exact (us_grid _ W). Qed.
  Lemma packet_at E : getR (fd_grid F) 0 <= E -> exists p, neutron_xs n E = Ok p /\ nonneg_packet p.
  Proof.
    intros HE. rewrite <- (ca_grid _ _ _ C) in HE.
    destruct (neutron_eval _ _ _ _ n E (held_obj _ _ _ _ n O) (held_good _ _ _ _ n O) SI HE) as (p & d & H1 & H2 & H3 & H4 & H5 & H6 & H7 & H8 & H9 & H10 & P1 & P2 & P3 & P4 & P5 & P6 & P7).
    exists p. split; [exact H1|]. repeat split; assumption.
  Qed.
  Lemma tables_at E xi : getR (fd_grid F) 0 <= E -> xi < 1 -> urr_evaluate' (n_urr n) E xi = Ok None \/ exists p, urr_evaluate' (n_urr n) E xi = Ok (Some p) /\ nonneg_packet p.
  Proof.
    intros HE X. rewrite <- (ca_grid _ _ _ C) in HE. set (u := n_urr n).
    destruct (Z_le_gt_dec (sizeZ (u_energy u)) 2) as [Small|Big].
    { left. unfold urr_evaluate', urr_valid. replace (2 <? sizeZ (u_energy u))%Z with false by lia. reflexivity. }
    destruct (held_index _ _ _ _ n E O) as (i & Ei & _).
    assert (K : urr_evaluate' u E xi = urr_evaluate u E i xi).
    { unfold urr_evaluate', urr_valid. replace (2 <? sizeZ (u_energy u))%Z with true by lia. cbn [negb]. unfold u. rewrite (elastic_grid _ _ _ _ n O), Ei. reflexivity. }
    destruct (Rlt_le_dec E (getR (u_energy u) 0)) as [L|L]; [left; rewrite K; apply urr_eval_none; auto|].
    destruct (Rlt_le_dec (getR (u_energy u) (sizeZ (u_energy u) - 1)) E) as [L2|L2]; [left; rewrite K; apply urr_eval_none; auto|].
    right. destruct (held_urr_eval _ _ _ _ n E xi O SI HE ltac:(fold u; lia) (conj L L2) ltac:(lra)) as (i' & p & other & _ & E1 & _ & P1 & P2 & P3 & P4 & P5 & P6 & _ & _ & A1 & A2 & _).
    exists p. split; [exact E1|]. unfold nonneg_packet. repeat split; lra.
  Qed.
  Lemma reaction_at_all d : In d (fd_reactions F) -> kept a (rd_mt d) -> exists r, neutron_reaction n (rd_mt d) = Ok r /\ evaluable (rx_xs r) /\ has_value (rx_yield r) /\
    (rd_y d <> 0 -> forall E ds, draws_in ds -> returns_or_waits (reaction_sample r E ds)) /\ (rd_y d = 0 -> forall E ds, rx_threshold r <= E -> reaction_sample r E ds = Throw).
  Proof.
    intros I Kd. destruct (ca_reactions _ _ _ C d I Kd) as (_ & r & Er & RA). exists r. split; [exact Er|].
    destruct (which_reaction _ _ _ _ _ _ _ _ _ Hn Er) as (k & (Bk & Mk & _) & Mr). pose proof (make_reaction_good _ _ a k (n_grid n) r (ng_grid n (held_good _ _ _ _ n O)) Mr) as [G _].
    destruct (entry_of a F D k Bk) as (d' & Ed' & HA & M'). unfold mtr_entry in *. rewrite Mk in M'. injection M' as M'.
    assert (d' = d) as ->.
    { destruct (de_reactions a F D) as (_ & _ & ND & _). apply In_nth_error in I as (j & Ej). unfold fd_mts in ND.
      assert (EQ : Z.to_nat k = j).
      { apply (proj1 (NoDup_nth_error (map rd_mt (fd_reactions F))) ND); [rewrite map_length; apply nth_error_Some; congruence|]. rewrite (map_nth_error rd_mt (Z.to_nat k) (fd_reactions F) Ed'), (map_nth_error rd_mt j (fd_reactions F) Ej). congruence. }
      rewrite EQ, Ej in Ed'. injection Ed' as <-. reflexivity. }
    split; [exact (evaluable_good _ _ (ng_grid n (held_good _ _ _ _ n O)) G)|].
    split; [rewrite (rs_yield _ _ _ _ RA); apply usable_value; pose proof (us_yields _ W) as Y; rewrite Forall_forall in Y; exact (Y d I)|].
    split.
    - intros Y E ds U. destruct HA as [HE _ _ HL _ _ _ _]. pose proof (us_laws _ W) as L. rewrite Forall_forall in L.
      exact (reaction_sound a k (n_grid n) (rd_mt d) (rd_q d) (rd_y d) (rd_laws d) r E ds HE Y (HL Y) Mr (L d I) U).
    - intros Y E ds T. unfold reaction_sample. change (nltb E (rx_threshold r)) with (Rltb E (rx_threshold r)). replace (Rltb E (rx_threshold r)) with false by (symmetry; apply Rltb_false; lra). exact (rs_none _ _ _ _ RA Y E ds).
  Qed.
  Theorem file_answers : answers_all a F n.
  Proof.
    constructor.
    - exact packet_at.
    - exact tables_at.
    - exact reaction_at_all.
    - intros e E ds Ha Hb U. apply (sound_elastic_R e (n_elastic n)); try assumption. rewrite (ca_angle _ _ _ C). exact (us_angle _ W).
    - rewrite (ca_nu _ _ _ C). cbn [nu_total nu_prompt nu_delayed]. destruct (us_nus _ W) as (U1 & U2 & U3). repeat split; apply usable_value; assumption.
    - rewrite (ca_families _ _ _ C). intros f I. pose proof (us_families _ W) as Y. rewrite Forall_forall in Y. destruct (Y f I) as [Y1 Y2]. split.
      + intros E. exact (tab_ok any NumR_order (df_prob f) E Y1 Logic.I).
      + intros E ds U. apply fine_returns; [|exact U]. apply (fine_energy any NumR_order Logic.I Logic.I); [exact Y2|exact Logic.I].
  Qed.
End Whole.
