(** * Equiprobable energy bins between and beyond the incident energies (C24) *)
From Coq Require Import Reals Lra Lia List ZifyBool ZifyNat.
From Verif Require Import NumF Base NumR L_Search L_SearchR M_Interp M_PC M_Grid M_Spectra L_Interp2 L_PC L_PCR L_Legendre L_Angle L_Spectra4.
Import ListNotations. Local Open Scope R_scope.

Lemma one_energy (b : list R) d1 : @make_ebins R NumR [0] [b] = Ok d1 -> d1 = mkEB [0] [b].
Proof. intros H. apply make_ebins_spec in H. tauto. Qed.
Lemma one_sample (b : list R) ds : eb_sample (mkEB [0] [b]) 0 ds = (rlet! xi1 := draw in rlet! xi2 := draw in rlift (@sample_bins R NumR xi1 xi2 b)) ds.
Proof.
  unfold eb_sample. cbn [eb_energy eb_sets]. unfold rbind at 1, rlift at 1.
  rewrite (lower_boundR_eq [0] 0 0). 3: { unfold lb_at. cbn. repeat split; try lia; intros i Hi; try lia. assert (i = 0)%Z by lia. subst i. cbn. lra. }
  - reflexivity.
  - intros i j H1 H2 H3. cbn in H3. assert (i = 0 /\ j = 0)%Z as [-> ->] by lia. lra.
Qed.
Lemma one_pdf (b : list R) x : @eb_pdf R NumR (mkEB [0] [b]) 0 x = pdf_bins x b.
Proof.
  unfold eb_pdf. cbn [eb_energy eb_sets].
  rewrite (lower_boundR_eq [0] 0 0). 3: { unfold lb_at. cbn. repeat split; try lia; intros i Hi; try lia. assert (i = 0)%Z by lia. subst i. cbn. lra. }
  - reflexivity.
  - intros i j H1 H2 H3. cbn in H3. assert (i = 0 /\ j = 0)%Z as [-> ->] by lia. lra.
Qed.
Lemma eb_lb_between (energy : list R) E l : increasing energy -> (0 <= l < sizeZ energy - 1)%Z -> getR energy l < E <= getR energy (l + 1) -> lower_bound energy E = Ok (l + 1)%Z.
Proof.
  intros I Hl HE. apply lower_boundR_eq; [exact I|]. repeat split; try lia; intros i Hi.
  - assert (getR energy i <= getR energy l) by (apply I; lia). lra.
  - assert (getR energy (l + 1) <= getR energy i) by (apply I; lia). lra.
Qed.
Lemma eb_between (energy : list R) (sets : list (list R)) d E l b1 b2 d1 d2 xi ds : @make_ebins R NumR energy sets = Ok d -> (0 <= l < sizeZ energy - 1)%Z -> getR energy l < E <= getR energy (l + 1) ->
  atZ sets l = Ok b1 -> atZ sets (l + 1) = Ok b2 -> @make_ebins R NumR [0] [b1] = Ok d1 -> @make_ebins R NumR [0] [b2] = Ok d2 ->
  let f := (E - getR energy l) / (getR energy (l + 1) - getR energy l) in
  (xi <= f -> eb_sample d E (xi :: ds) = eb_sample d2 0 ds) /\ (f < xi -> eb_sample d E (xi :: ds) = eb_sample d1 0 ds) /\
  (forall x p1 p2, eb_pdf d1 0 x = Ok p1 -> eb_pdf d2 0 x = Ok p2 -> eb_pdf d E x = Ok ((1 - f) * p1 + f * p2)).
Proof.
  intros Mk Hl HE B1 B2 M1 M2 f. apply one_energy in M1, M2. subst d1 d2. apply make_ebins_spec in Mk as (I & L & _ & ->). rewrite !one_sample.
  assert (S : eb_sample (mkEB energy sets) E (xi :: ds) = (rlet! b := rlift (atZ sets (if Rltb f xi then l else (l + 1)%Z)) in rlet! xi1 := draw in rlet! xi2 := draw in rlift (@sample_bins R NumR xi1 xi2 b)) ds).
  { unfold eb_sample. cbn [eb_energy eb_sets]. unfold rbind at 1, rlift at 1. rewrite (eb_lb_between energy E l I Hl HE). cbn [bind].
    replace (l + 1 =? 0)%Z with false by lia. replace (l + 1 =? sizeZ energy)%Z with false by lia. replace (l + 1 - 1)%Z with l by lia. unfold rbind at 1, rlift at 1. rewrite atR by lia. cbn [bind]. unfold rbind at 1, rlift at 1. rewrite atR by lia. cbn [bind].
    reflexivity. }
  split; [|split].
  - intros H. rewrite S. destruct (Rltb_spec f xi); [lra|]. unfold rbind at 1, rlift at 1. rewrite B2. reflexivity.
  - intros H. rewrite S. destruct (Rltb_spec f xi); [|lra]. unfold rbind at 1, rlift at 1. rewrite B1. reflexivity.
  - intros x p1 p2 P1 P2. rewrite one_pdf in P1, P2. unfold eb_pdf. cbn [eb_energy eb_sets]. rewrite (eb_lb_between energy E l I Hl HE). cbn [bind].
    replace (l + 1 =? 0)%Z with false by lia. replace (l + 1 =? sizeZ energy)%Z with false by lia. replace (l + 1 - 1)%Z with l by lia. rewrite !atR by lia. cbn [bind]. rewrite B1, B2. cbn [bind]. rewrite P1, P2. reflexivity.
Qed.
Lemma eb_outside (energy : list R) (sets : list (list R)) d E i b d1 ds x : @make_ebins R NumR energy sets = Ok d -> (0 < sizeZ energy)%Z ->
  (i = 0%Z /\ E <= getR energy 0 \/ i = (sizeZ energy - 1)%Z /\ getR energy (sizeZ energy - 1) < E) -> atZ sets i = Ok b -> @make_ebins R NumR [0] [b] = Ok d1 ->
  eb_sample d E ds = eb_sample d1 0 ds /\ eb_pdf d E x = eb_pdf d1 0 x.
Proof.
  intros Mk L0 HE B M1. apply one_energy in M1. subst d1. apply make_ebins_spec in Mk as (I & L & _ & ->). rewrite one_sample, one_pdf. unfold eb_sample, eb_pdf. cbn [eb_energy eb_sets]. unfold rbind at 1, rlift at 1.
  assert (Ls : sizeZ energy = sizeZ sets) by (unfold sizeZ; lia).
  destruct HE as [[-> HE]|[-> HE]].
  - rewrite (lower_boundR_eq energy E 0 I). 2: { repeat split; try lia; intros i Hi; try lia. assert (getR energy 0 <= getR energy i) by (apply I; lia). lra. }
    cbn [bind]. change (0 =? 0)%Z with true. cbv iota. unfold rbind at 1, rlift at 1. unfold frontR. rewrite B. cbn [bind]. split; reflexivity.
  - rewrite (lower_boundR_eq energy E (sizeZ energy) I). 2: { repeat split; try lia; intros i Hi; try lia. assert (getR energy i <= getR energy (sizeZ energy - 1)) by (apply I; lia). lra. }
    cbn [bind]. replace (sizeZ energy =? 0)%Z with false by lia. rewrite Z.eqb_refl. cbv iota. unfold rbind at 1, rlift at 1. unfold backR. rewrite <- Ls, B. cbn [bind]. split; reflexivity.
Qed.
