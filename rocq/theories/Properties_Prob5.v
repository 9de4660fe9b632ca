(** * C92: the laws of combined distributions *)
From Coq Require Import Reals Lra Lia List ZifyBool ZifyNat. From Coquelicot Require Import Coquelicot.
From Verif Require Import Base NumR L_SearchR M_Interp M_Tab1D M_Func M_Grid M_PC M_OutE M_Spectra M_Kin M_Ace M_Neutron M_Laws S_Spectra S_Neutron S_Laws S_Prob S_Mix S_Replay L_Search L_Legendre L_Spectra L_Spectra2 L_Spectra5 L_Prob L_ProbEv L_ProbLaw L_ProbLoop L_Replay L_ProbAngle L_ProbComp L_ProbComp2 L_ProbComp3 L_LawsEx Properties_Laws Properties_Angle Properties_Spectra Properties_Prob Properties_Prob2 Properties_Replay.
Import ListNotations.
Local Open Scope R_scope.

(** Uncorrelated: the cosine and the energy are independent *)
Theorem C92_uncorrelated : forall (d : uncor R) E (A B : R -> Prop) p q, replayable (adist_sample (uc_angle d) E) -> replayable (el_sample (uc_energy d) E) ->
  law (adist_sample (uc_angle d) E) A p -> law (el_sample (uc_energy d) E) B q -> law (uc_sample d E) (fun v => A (fst v) /\ B (snd v)) (p * q).
Proof. exact uc_law. Qed.
Print Assumptions C92_uncorrelated.
(** ... so that its pdf is their joint density whenever the pdfs of the angular and energy distributions are theirs *)
Theorem C92_uncorrelated_pdf : forall (d : uncor R) E a b fa fe, replayable (adist_sample (uc_angle d) E) -> replayable (el_sample (uc_energy d) E) ->
  (forall mu, adist_pdf (uc_angle d) E mu = Ok (fa mu)) -> (forall x, el_pdf (uc_energy d) E x = Ok (Some (fe x))) ->
  has_density (adist_sample (uc_angle d) E) (-1) 1 fa -> has_density (el_sample (uc_energy d) E) a b fe ->
  exists f, (forall mu x, uc_pdf d E mu x = Ok (Some (f mu x))) /\ has_joint_density (uc_sample d E) a b f.
Proof.
  intros d E a b fa fe R1 R2 PA PE D1 D2. exists (fun mu x => fe x * fa mu). split; [|apply uc_joint; assumption]. intros mu x. apply (C31_pdf_product R NumR d E mu x (fa mu) (PA mu)), PE.
Qed.
Print Assumptions C92_uncorrelated_pdf.
(** MultipleDistribution: each distribution is used with its probability, and what is missing to 1 goes to the last *)
Theorem C92_mixture : forall ds ps (m : multi R) E pv qs (B : R * R -> Prop), make_multi ds ps = Ok m -> evaluate_to (md_probs m) E pv -> Forall (fun p => 0 <= p) pv -> total pv <= 1 ->
  Forall2 (fun d q => law (ae_sample d E) B q) (md_dists m) qs -> law (md_sample m E) B (weigh pv qs + (1 - total pv) * List.last qs 0).
Proof.
  intros ds ps m E pv qs B M. apply make_multi_spec in M as (D & P & _ & _ & L & L2 & ->). apply md_law; cbn [md_dists md_probs]; [destruct D; [cbn in L2; lia|discriminate]|exact L].
Qed.
Print Assumptions C92_mixture.
(** ... so that its pdf is the joint density whenever the pdfs of the distributions are theirs and the probabilities add up to 1 *)
Theorem C92_mixture_pdf : forall ds ps (m : multi R) E a b pv fs, make_multi ds ps = Ok m -> evaluate_to (md_probs m) E pv -> Forall (fun p => 0 <= p) pv -> total pv = 1 ->
  Forall2 (fun d f => (forall mu x, ae_pdf d E mu x = Ok (Some (f mu x))) /\ has_joint_density (ae_sample d E) a b f) (md_dists m) fs ->
  exists f, (forall mu x, md_pdf m E mu x = Ok (Some (f mu x))) /\ has_joint_density (md_sample m E) a b f.
Proof.
  intros ds ps m E a b pv fs M Ev Pos Tot H. exists (mixf pv fs). split.
  - intros mu x. unfold mixf. rewrite weigh_weighted. apply (proj1 (C29_pdf_is_mixture ds ps m E pv M Ev mu x)). clear - H. induction H as [|d f l fs [Hd _] HF IH]; cbn; constructor; [apply Hd|exact IH].
  - apply make_multi_spec in M as (D & P & _ & _ & L & L2 & ->). apply md_joint; cbn [md_dists md_probs] in *; try assumption; [destruct D; [cbn in L2; lia|discriminate]|].
    clear - H. induction H as [|d f l fs [_ Hd] HF IH]; constructor; assumption.
Qed.
Print Assumptions C92_mixture_pdf.
(** SummedFissionSpectrum: each partial fission is used in proportion to its cross section at E *)
Theorem C92_fission_spectrum : forall (d : sumfis R) E i x0 x1 x2 x3 q0 q1 q2 q3 (B : R * R -> Prop), get_lower_index (x_grid (fr_xs (sf0 d))) E = Ok i ->
  contributes (sf0 d) E i x0 -> contributes (sf1 d) E i x1 -> contributes (sf2 d) E i x2 -> contributes (sf3 d) E i x3 -> 0 <= x0 -> 0 <= x1 -> 0 <= x2 -> 0 <= x3 -> 0 < x0 + x1 + x2 + x3 ->
  law (ae_sample (fr_dist (sf0 d)) E) B q0 -> law (ae_sample (fr_dist (sf1 d)) E) B q1 -> law (ae_sample (fr_dist (sf2 d)) E) B q2 -> law (ae_sample (fr_dist (sf3 d)) E) B q3 ->
  law (sf_sample d E) B ((x0 * q0 + x1 * q1 + x2 * q2 + x3 * q3) / (x0 + x1 + x2 + x3)).
Proof. exact sf_law. Qed.
Print Assumptions C92_fission_spectrum.
(** CMDistribution: the law of the underlying distribution carried to the laboratory *)
Theorem C92_centre_of_mass : forall (s : R -> rand R (R * R)) awr E (B : R * R -> Prop) q, law (s E) (fun v => B (cm_to_lab E awr (fst v) (snd v))) q -> law (cm_sample s awr E) B q.
Proof. exact cm_law_of. Qed.
Print Assumptions C92_centre_of_mass.
(** a reaction of a file: the laws listed there, mixed with the probabilities tabulated there (they must add up to 1 at E),
    in the frame the file says *)
Theorem C92_reaction_of_file : forall a indx g mt q y laws r E ps qs (B : R * R -> Prop), reaction_entries a indx mt q y -> reaction_laws a indx q laws -> reaction_of_ace a indx g = Ok r -> rx_threshold r <= E ->
  Forall2 (fun x p => tab_eval (snd x) E = Ok p) laws ps -> Forall (fun p => 0 <= p) ps -> total ps = 1 ->
  (0 < y -> Forall2 (fun x v => law (ae_sample (fst x) E) B v) laws qs -> law (reaction_sample r E) B (weigh ps qs)) /\
  (y < 0 -> Forall2 (fun x v => law (ae_sample (fst x) E) (fun w => B (cm_to_lab E (a_awr a) (fst w) (snd w))) v) laws qs -> law (reaction_sample r E) B (weigh ps qs)).
Proof. exact file_law. Qed.
Print Assumptions C92_reaction_of_file.

(** an isotropic cosine with an evaporation spectrum of temperature t *)
Definition evap_iso (t : R) : aelaw R :=
  let d := mkUC (mkADist [1; 2] [isotropic; isotropic]) (mkEL (ev_sample (fun _ => Ok t) 1) (fun E x => let! p := ev_pdf (fun _ => Ok t) 1 E x in Ok (Some p))) in mkAE (uc_sample d) (uc_angle_pdf d) (uc_pdf d).
Example C92_uncorrelated_case : forall t, 0 < t -> exists f, (forall mu x, ae_pdf (evap_iso t) 4 mu x = Ok (Some (f mu x))) /\ has_joint_density (ae_sample (evap_iso t) 4) 0 (4 - 1) f.
Proof.
  intros t Ht. destruct Properties_Prob2.C88_angle_distribution_case as (ad & M & _). assert (ad = mkADist [1; 2] [@isotropic R NumR; isotropic]) as -> by (revert M; unfold make_adist; cbn; rdec; intros M; injection M as <-; reflexivity).
  destruct (adist_density _ _ _ 4 M ltac:(cbn; lia)) as (fa & PA & DA).
  { intros l H. assert (l = isotropic) as -> by (destruct H as [<-|[<-|[]]]; reflexivity). split; [exact Properties_Angle.C14_isotropic|exact isotropic_density]. }
  pose (fe := fun x => if Rle_dec 0 x then if Rle_dec x (4 - 1) then x / ev_norm t (4 - 1) * exp (- x / t) else 0 else 0).
  assert (PE : forall x, ev_pdf (fun _ : R => Ok t) 1 4 x = Ok (fe x)).
  { intros x. destruct (inside_dec x (4 - 1)) as [I|I].
    - rewrite (ev_pdf_inside _ 1 4 t x eq_refl I). unfold fe. destruct (Rle_dec 0 x); [|lra]. destruct (Rle_dec x (4 - 1)); [reflexivity|lra].
    - rewrite (ev_pdf_outside _ 1 4 x I). unfold fe. destruct (Rle_dec 0 x); [|reflexivity]. destruct (Rle_dec x (4 - 1)); [lra|reflexivity]. }
  apply (C92_uncorrelated_pdf _ 4 0 (4 - 1) fa fe).
  - apply rp_adist. repeat (apply Forall_cons; [apply rp_isotropic|]); apply Forall_nil.
  - apply rp_ev.
  - exact PA.
  - intros x. cbn [uc_energy el_pdf]. rewrite PE. reflexivity.
  - exact DA.
  - apply (C87_evaporation_partial (fun _ => Ok t) 1 4 t fe eq_refl); [lra|lra|exact PE].
Qed.
Example C92_mixture_case : exists m f, make_multi [Some (evap_iso 1); Some (evap_iso 2)] [Some (fun _ => Ok (1/4)); Some (fun _ => Ok (3/4))] = Ok m /\
  (forall mu x, md_pdf m 4 mu x = Ok (Some (f mu x))) /\ has_joint_density (md_sample m 4) 0 (4 - 1) f.
Proof.
  set (m := mkMD [evap_iso 1; evap_iso 2] [fun _ => Ok (1/4); fun _ => Ok (3/4)]). assert (M : make_multi [Some (evap_iso 1); Some (evap_iso 2)] [Some (fun _ => Ok (1/4)); Some (fun _ => Ok (3/4))] = Ok m) by reflexivity.
  destruct (C92_uncorrelated_case 1 ltac:(lra)) as (f1 & F1), (C92_uncorrelated_case 2 ltac:(lra)) as (f2 & F2).
  destruct (C92_mixture_pdf _ _ m 4 0 (4 - 1) [1/4; 3/4] [f1; f2] M) as (f & Hf).
  - repeat (apply Forall2_cons; [reflexivity|]); apply Forall2_nil.
  - repeat (apply Forall_cons; [lra|]); apply Forall_nil.
  - cbn. lra.
  - apply Forall2_cons; [exact F1|]. apply Forall2_cons; [exact F2|]. apply Forall2_nil.
  - exists m, f. split; [exact M|exact Hf].
Qed.
(** a file with two laws of probability 1/2 each *)
Example C92_reaction_of_file_case : exists r, reaction_of_ace (exl 1 10) 0 exl_grid = Ok r /\ law (reaction_sample r 3) (fun v => fst v <= 0) (1/2).
Proof.
  destruct (exl_laws_both 1) as (t & HL & Ht). destruct (C76_case 1 (or_introl eq_refl)) as (r & mu & e & He & Er & Th & _). exists r. split; [exact Er|]. pose proof (exl_half t 3 Ht ltac:(lra)) as Hp.
  destruct (C92_reaction_of_file _ 0 _ _ _ _ _ r 3 [1/2; 1/2] [1/2; 1/2] (fun v => fst v <= 0) He HL Er Th) as [H _].
  - repeat (apply Forall2_cons; [exact Hp|]); apply Forall2_nil.
  - repeat (apply Forall_cons; [lra|]); apply Forall_nil.
  - cbn. lra.
  - eapply law_val; [|apply H; [lra|]]; [cbn; lra|]. apply Forall2_cons; [exact exl_first_law|]. apply Forall2_cons; [exact exl_second_law|]. apply Forall2_nil.
Qed.
(** a fission spectrum where two partial fissions contribute 3 to 1, the first sending neutrons forward and the second backward *)
Definition sent (c : R) : aelaw R := mkAE (fun _ => rret (c, 1)) (fun _ _ => Ok None) (fun _ _ _ => Ok None).
Lemma sent_law c (B : R * R -> Prop) : B (c, 1) \/ ~ B (c, 1) -> exists q, law (ae_sample (sent c) 2) B q /\ (B (c, 1) -> q = 1) /\ (~ B (c, 1) -> q = 0).
Proof.
  intros [H|H]; [exists 1|exists 0]; (split; [apply (law_uses _ 0 (fun _ => (c, 1)))|split; intros; tauto]).
  1, 3: split; [intros l r [L _] _; destruct l; [reflexivity|discriminate]|intros l L; exfalso; cbn in L; lia].
  - apply prob_always. trivial.
  - apply prob_never. trivial.
Qed.
Example C92_fission_spectrum_case : exists d, make_sumfis (Some (mkFR 0 (fr_xs (fr_ex 3 5)) (sent 1))) (Some (mkFR 0 (fr_xs (fr_ex 1 5)) (sent (-1)))) (Some (mkFR 4 (fr_xs (fr_ex 1 5)) (sent 1))) (Some (mkFR 4 (fr_xs (fr_ex 1 5)) (sent 1))) = Ok d /\
  law (sf_sample d 2) (fun v => fst v <= 0) (1/4).
Proof.
  eexists. split; [reflexivity|]. assert (G : get_lower_index g12 2 = Ok 1%Z). { unfold get_lower_index. cbn [g12 g_vals]. change (frontR [1; 2]) with (Ok 1). change (backR [1; 2]) with (Ok 2). cbn [bind]. change (@nleb R NumR) with Rleb. rdec. reflexivity. }
  destruct (sent_law 1 (fun v => fst v <= 0)) as (q & L & _ & Q); [right; cbn; lra|]. destruct (sent_law (-1) (fun v => fst v <= 0)) as (q' & L' & Q' & _); [left; cbn; lra|]. cbn in Q, Q'. rewrite Q in L by lra. rewrite Q' in L' by lra. clear Q Q' q q'.
  eapply law_val; [|apply (C92_fission_spectrum _ 2 1 3 1 0 0 0 1 0 0); cbn [sf0 sf1 sf2 sf3 fr_dist fr_xs x_grid fr_ex]; try exact L; try exact L'; try lra; [exact G| | | |]].
  - field.
  - left. cbn. split; [lra|reflexivity].
  - left. cbn. split; [lra|reflexivity].
  - right. cbn. lra.
  - right. cbn. lra.
Qed.
