(** * The angular Jacobian from the lab energy (frame.hpp 95-101) and file-level centre-of-mass laws *)
From Coquelicot Require Import Coquelicot.
From Verif Require Import Base NumR M_Kin S_Kin L_Kin L_Kin2 M_Spectra M_Laws.
From Coq Require Import Reals Lra.
Local Open Scope R_scope.

Lemma angle_jacobian_energy Ein A Ecm w : 0 <= Ein -> 0 < A -> 0 < Ecm ->
  let g := sqrt Ein / ((A + 1) * sqrt Ecm) in let X := 1 + 2 * g * w + g * g in 0 < X -> 1 + g * w <> 0 ->
  @angle_jacobian R NumR Ein A (lab_cos g w) (Ecm * X) = / ((1 + g * w) / (X * sqrt X)).
Proof.
  intros HE HA HC g X HX HW. set (u := sqrt Ecm). assert (Hu : 0 < u) by (apply sqrt_lt_R0; exact HC). assert (Eu : Ecm = u * u) by (symmetry; apply sqrt_sqrt; lra).
  set (s := sqrt X). assert (Hs : 0 < s) by (apply sqrt_lt_R0; exact HX). assert (Es : X = s * s) by (symmetry; apply sqrt_sqrt; lra).
  assert (Eg : sqrt Ein = (A + 1) * (g * u)) by (unfold g; fold u; field; lra). assert (Hg : 0 <= g) by (unfold g; fold u; apply Rmult_le_pos; [apply sqrt_pos|left; apply Rinv_0_lt_compat; nra]).
  clearbody g.
  assert (EE : Ein = (A + 1) * (g * u) * ((A + 1) * (g * u))) by (rewrite <- Eg; symmetry; apply sqrt_sqrt; lra).
  assert (S1 : sqrt (Ein * (Ecm * X)) = (A + 1) * g * u * (u * s)).
  { rewrite EE, Eu, Es. replace ((A + 1) * (g * u) * ((A + 1) * (g * u)) * (u * u * (s * s))) with (((A + 1) * g * u * (u * s)) * ((A + 1) * g * u * (u * s))) by ring. apply sqrt_square. repeat apply Rmult_le_pos; lra. }
  assert (S2 : sqrt (Ein / (Ecm * X)) = (A + 1) * g / s).
  { rewrite EE, Eu, Es. replace ((A + 1) * (g * u) * ((A + 1) * (g * u)) / (u * u * (s * s))) with (((A + 1) * g / s) * ((A + 1) * g / s)) by (field; lra). apply sqrt_square. apply Rmult_le_pos; [apply Rmult_le_pos; lra|left; apply Rinv_0_lt_compat; lra]. }
  unfold angle_jacobian. rnum. rewrite S1, S2. unfold lab_cos. fold X s.
  assert (C : Ecm * X - (Ein + 2 * (A + 1) * ((A + 1) * g * u * (u * s)) * ((g + w) / s - 1 / (A + 1) * ((A + 1) * g / s))) / ((A + 1) * (A + 1)) = Ecm).
  { rewrite EE. transitivity (Ecm * X - (g * u * (g * u) + 2 * g * u * u * w)); [field; lra|]. rewrite Eu. unfold X. ring. }
  rewrite C. replace (Ecm * X / Ecm) with X by (field; lra). fold s.
  replace (1 - (g + w) / s / (A + 1) * ((A + 1) * g / s)) with ((1 + g * w) / X).
  - field. repeat split; lra.
  - rewrite Es. transitivity ((s * s - (g + w) * g) / (s * s)); [|field; lra]. rewrite <- Es. unfold X. f_equal. ring.
Qed.
(** the centre-of-mass wrapper of file reactions is the wrapper of C59 *)
Lemma cm_law_densities {T} {N : Num T} awr q (d : aelaw T) fa fp : (forall E mu, ae_angle_pdf d E mu = Ok (fa E mu)) -> (forall E mu Eo, ae_pdf d E mu Eo = Ok (fp E mu Eo)) ->
  forall E mu Eo, ae_angle_pdf (cm_law awr q d) E mu = Ok (cm_angle_pdf fa awr q E mu) /\ ae_pdf (cm_law awr q d) E mu Eo = Ok (cm_pdf fp awr E mu Eo).
Proof.
  intros Ha Hp E mu Eo. split.
  - cbn [cm_law ae_angle_pdf]. unfold cm_angle_pdf_r, cm_angle_pdf. destruct (lab_to_cm_angle E awr q mu) as [[w1|] [w2|]]; rewrite ?Ha; cbn [bind]; reflexivity.
  - cbn [cm_law ae_pdf]. unfold cm_pdf_r, cm_pdf. destruct (lab_to_cm E awr mu Eo) as [m e]. rewrite Hp. cbn [bind]. reflexivity.
Qed.
