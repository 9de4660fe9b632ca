(** * C94: N-body phase space samples with its density *)
From Coq Require Import Reals Lra Lia List ZArith ZifyBool ZifyNat. From Coquelicot Require Import Coquelicot.
From Verif Require Import Base NumR L_SearchR M_Grid M_Spectra S_Prob S_Mix S_NBody L_Legendre L_Spectra L_Spectra3 L_Prob L_ProbEv L_ProbLaw L_Replay L_ProbComp L_ProbComp3 L_ProbNB4 Properties_Spectra.
Import ListNotations.
Local Open Scope R_scope.

(** Any NBody the constructor accepts, at any incident energy that leaves some energy to share: with independent uniform random numbers the pair (cosine, energy) that is sampled has the joint density that pdf() reports *)
Theorem C94_pdf_is_the_density : forall n Ap A Q d E, make_nbody n Ap A Q = Ok d -> 0 < share_max Ap A Q E -> has_joint_density (nb_sample d E) 0 (share_max Ap A Q E) (fun mu x => nb_pdf d E x).
Proof.
  intros n Ap A Q d E Mk HM. apply make_nbody_spec in Mk as (Hn & _ & _ & ->). exact (nb_joint (mkNB n Ap A Q) E Hn HM).
Qed.
Print Assumptions C94_pdf_is_the_density.
(** ... which is the textbook spectrum times the uniform density 1/2 of the cosine *)
Theorem C94_pdf_is_the_spectrum : forall n Ap A Q d E x, make_nbody n Ap A Q = Ok d -> 0 < x < share_max Ap A Q E -> nb_pdf d E x = 1 / 2 * phase_space n (share_max Ap A Q E) x.
Proof.
  intros n Ap A Q d E x Mk Hx. apply make_nbody_spec in Mk as (Hn & _ & _ & ->). unfold nb_pdf. cbn [nb_n]. change (nb_Emax (mkNB n Ap A Q) E) with (share_max Ap A Q E). set (M := share_max Ap A Q E) in *. pose proof PI_RGT_0 as PP. assert (Sm : 0 < sqrt M) by (apply sqrt_lt_R0; lra).
  destruct Hn as [-> | [-> | ->]]; cbn [Z.eqb Pos.eqb phase_space]; rnum.
  - rewrite Rpow_pos, half_pow by lra. field. lra.
  - rewrite (Rpow_pos M), seven_half by lra. replace (3 * 4 / 2 - 4) with (IZR 2) by (cbn; lra). rewrite Rpow_int. cbn [powerRZ]. change (Pos.to_nat 2) with 2%nat. cbn [pow]. field. lra.
  - rewrite (Rpow_pos (M - x)) by lra. replace (3 * 5 / 2 - 4) with (7 / 2) by lra. rewrite seven_half by lra. change (Rpow M 5) with (Rpow M (IZR 5)). rewrite Rpow_int. cbn [powerRZ]. change (Pos.to_nat 5) with 5%nat. cbn [pow]. field. lra.
Qed.
Print Assumptions C94_pdf_is_the_spectrum.
(** the marginal: the sampled energy (whatever the cosine) has the textbook spectrum *)
Theorem C94_energy_spectrum : forall n Ap A Q d E e, make_nbody n Ap A Q = Ok d -> 0 < share_max Ap A Q E -> 0 <= e <= share_max Ap A Q E ->
  exists p, is_RInt (phase_space n (share_max Ap A Q E)) 0 e p /\ law (nb_sample d E) (fun v => snd v <= e) p.
Proof.
  intros n Ap A Q d E e Mk HM He. pose proof Mk as Mk'. apply make_nbody_spec in Mk' as (Hn & _ & _ & Ed). assert (Hn' : (nb_n d = 3 \/ nb_n d = 4 \/ nb_n d = 5)%Z) by (rewrite Ed; exact Hn). assert (Em : nb_Emax d E = share_max Ap A Q E) by (rewrite Ed; reflexivity).
  destruct (nb_dens d E Hn' ltac:(rewrite Em; exact HM)) as [_ H]. rewrite Em in H. destruct (H e He) as (p & L & I). exists p. split.
  - apply (iR_ext (fun x => 2 * nb_pdf d E x)); [lra| |exact I]. intros x Hx. rewrite (C94_pdf_is_the_spectrum n Ap A Q d E x Mk) by lra. match goal with |- ?a = ?b => change (@eq R a b) end. field.
  - eapply law_same; [intros ds _; symmetry; apply nb_both|]. eapply law_val; [|apply (law_both (nb_energy d E) draw (fun e u => (2 * u - 1, e)) (fun v => v <= e) (fun _ => True)); [apply rp_nb_energy|exact rp_draw1| |exact L|exact law_draw_any]]; [ring|]. intros x u. cbn. tauto.
Qed.
Print Assumptions C94_energy_spectrum.
(** deuterium-like break-up into three, and a five-particle reaction above threshold *)
Example C94_three_bodies : exists d, make_nbody 3 3 2 (-(2)) = Ok d /\ 0 < share_max 3 2 (-(2)) 6 /\ has_joint_density (nb_sample d 6) 0 (share_max 3 2 (-(2)) 6) (fun mu x => nb_pdf d 6 x) /\
  nb_pdf d 6 (2/3) = 1 / 2 * (8 / (PI * (4/3 * (4/3))) * (2/3)).
Proof.
  assert (S : share_max 3 2 (-(2)) 6 = 4/3) by (unfold share_max; field). destruct (proj2 (C28_nbody_checks 3 3 2 (-(2))) ltac:(tauto) ltac:(lra) ltac:(lra)) as (d & Mk). exists d. split; [exact Mk|]. split; [rewrite S; lra|]. split; [apply (C94_pdf_is_the_density _ _ _ _ _ _ Mk); rewrite S; lra|].
  rewrite (C94_pdf_is_the_spectrum _ _ _ _ _ _ _ Mk) by (rewrite S; lra). rewrite S. cbn [phase_space]. replace (4/3 - 2/3) with (2/3) by lra. rewrite sqrt_sqrt by lra. reflexivity.
Qed.
Example C94_five_bodies : exists d, make_nbody 5 5 4 (-(1)) = Ok d /\ share_max 5 4 (-(1)) 5 = 12/5 /\ exists p, is_RInt (phase_space 5 (12/5)) 0 1 p /\ law (nb_sample d 5) (fun v => snd v <= 1) p.
Proof.
  assert (S : share_max 5 4 (-(1)) 5 = 12/5) by (unfold share_max; field). destruct (proj2 (C28_nbody_checks 5 5 4 (-(1))) ltac:(tauto) ltac:(lra) ltac:(lra)) as (d & Mk). exists d. split; [exact Mk|]. split; [exact S|].
  rewrite <- S. apply (C94_energy_spectrum _ _ _ _ _ _ _ Mk); rewrite S; lra.
Qed.
