(** * CMDistribution::angle_pdf: the value, and its symmetry *)
From Coquelicot Require Import Coquelicot.
From Verif Require Import Base NumR M_Kin S_Kin L_Kin L_Kin2.
From Coq Require Import Reals Lra.
Local Open Scope R_scope.

Lemma Rpow_sqr x : Rpow x 2 = x * x.
Proof. change 2 with (IZR 2). rewrite Rpow_int. unfold powerRZ. change (Pos.to_nat 2) with 2%nat. cbn [pow]. ring. Qed.

Lemma jacobian_even Ein A Q mu w : @angle_jacobian_q R NumR Ein A Q (- mu) w = @angle_jacobian_q R NumR Ein A Q mu w.
Proof. unfold angle_jacobian_q. rnum. replace (- mu * - mu) with (mu * mu) by ring. reflexivity. Qed.
Lemma angles_even Ein A Q mu : @lab_to_cm_angle R NumR Ein A Q (- mu) = @lab_to_cm_angle R NumR Ein A Q mu.
Proof.
  unfold lab_to_cm_angle. rnum. replace (- mu * - mu) with (mu * mu) by ring.
  replace (Reqb (- mu) 0) with (Reqb mu 0); [reflexivity|]. destruct (Reqb_spec mu 0), (Reqb_spec (- mu) 0); try reflexivity; lra.
Qed.
Lemma cm_angle_pdf_even f Ein A Q mu : @cm_angle_pdf R NumR f A Q Ein (- mu) = cm_angle_pdf f A Q Ein mu.
Proof.
  unfold cm_angle_pdf. rewrite angles_even. destruct (lab_to_cm_angle Ein A Q mu) as [w1 w2].
  f_equal. f_equal; [destruct w1|destruct w2]; try reflexivity; rewrite jacobian_even; reflexivity.
Qed.

Lemma jacobian_root Ein A Q w mu :
  let g := @cm_gamma R NumR Ein A Q in
  0 < 1 + 2 * g * w + g * g -> -1 < w < 1 -> g + w <> 0 -> 1 + g * w <> 0 -> root_of g mu w ->
  @angle_jacobian_q R NumR Ein A Q mu w = / ((1 + g * w) / ((1 + 2 * g * w + g * g) * sqrt (1 + 2 * g * w + g * g))).
Proof.
  intros g HX Hw Hg H1 HR. unfold angle_jacobian_q. fold g. clearbody g. rnum.
  rewrite Rpow_sqr. unfold root_of in HR.
  assert (0 < sqrt (1 + 2 * g * w + g * g)) by (apply sqrt_lt_R0; lra).
  assert (Hs : sqrt (1 + 2 * g * w + g * g) * sqrt (1 + 2 * g * w + g * g) = 1 + 2 * g * w + g * g) by (apply sqrt_sqrt; lra).
  assert (Hm : mu * mu = (g + w) * (g + w) / (1 + 2 * g * w + g * g)) by (rewrite HR; field; lra).
  assert (H2 : 1 - mu * mu = (1 - w * w) / (1 + 2 * g * w + g * g)) by (rewrite Hm; field; lra).
  rewrite H2, Hm. rewrite sqrt_div_pos by nra.
  assert (0 < sqrt (1 - w * w)) by (apply sqrt_lt_R0; nra).
  set (r := sqrt (1 + 2 * g * w + g * g)) in *. rewrite <- Hs. set (q := sqrt (1 - w * w)) in *. clearbody r q. field. repeat split; lra.
Qed.

(** both roots lie strictly inside [-1,1] and the lab cosine is not stationary there *)
Lemma roots_regular g mu w : 0 <= g -> g <> 1 -> mu <> 0 -> -1 < mu < 1 -> g * g * (1 - mu * mu) < 1 -> root_of g mu w ->
  0 < 1 + 2 * g * w + g * g /\ -1 < w < 1 /\ g + w <> 0 /\ 1 + g * w <> 0.
Proof.
  unfold root_of. intros Hg Hg1 Hm Hm1 HD HR. set (X := 1 + 2 * g * w + g * g) in *.
  assert (EX : X = (g + w) * (g + w) + (1 - w * w)) by (unfold X; ring).
  assert (EW : 1 - w * w = X * (1 - mu * mu)) by lra.
  assert (Hmm : 0 < mu * mu) by nra. assert (HX0 : 0 <= X).
  { destruct (Rle_dec 0 X) as [H|H]; [exact H|]. exfalso. assert (0 <= (g + w) * (g + w)) by (apply Rle_0_sqr). nra. }
  assert (HX : 0 < X).
  { destruct (Req_dec X 0) as [E|E]; [|lra]. exfalso. rewrite E in HR, EW. assert (g + w = 0) by (apply Rsqr_0_uniq; unfold Rsqr; lra). apply Hg1. assert (Hw : w = - g) by lra. rewrite Hw in EW. assert ((1 - g) * (1 + g) = 0) by lra. apply Rmult_integral in H0. destruct H0; lra. }
  assert (Hm2 : 0 < 1 - mu * mu) by nra. assert (W2 : w * w < 1) by (pose proof (Rmult_lt_0_compat _ _ HX Hm2); lra). split; [exact HX|]. split; [split; nra|]. split.
  - intros E. rewrite E in HR. nra.
  - intros E. assert (X = g * g - 1) by (unfold X; replace (2 * g * w) with (2 * (g * w)) by ring; lra).
    assert (Hgw : g * w = -1) by lra. assert (g <> 0) by (intros ->; lra).
    assert (g * g * (1 - w * w) = g * g - 1) by (replace (g * g * (1 - w * w)) with (g * g - (g * w) * (g * w)) by ring; rewrite Hgw; ring).
    rewrite EW in H1. rewrite H in H1. nra.
Qed.
Lemma gamma_nonneg Ein A Q : 0 <= @cm_gamma R NumR Ein A Q. Proof. apply sqrt_pos. Qed.

Definition at_angle (f : R -> R -> option R) (Ein w : R) : R := match f Ein w with Some p => p | None => 0 end.
Lemma cm_angle_pdf_value f Ein A Q mu :
  let g := @cm_gamma R NumR Ein A Q in
  mu <> 0 -> -1 < mu < 1 -> g * g * (1 - mu * mu) < 1 -> g * g * (1 - mu * mu) <> mu * mu -> g <> 1 ->
  exists w1 w2 d1 d2, -1 < w1 < 1 /\ -1 < w2 < 1 /\
    (forall w, 0 < 1 + 2 * g * w + g * g -> ((w = w1 \/ w = w2) <-> (lab_cos g w = mu \/ lab_cos g w = - mu))) /\
    is_derive (lab_cos g) w1 d1 /\ is_derive (lab_cos g) w2 d2 /\ d1 <> 0 /\ d2 <> 0 /\
    cm_angle_pdf f A Q Ein mu = Some (at_angle f Ein w1 / d1 + at_angle f Ein w2 / d2).
Proof.
  intros g Hm Hm1 HD Hc Hg1. destruct (angle_two_roots Ein A Q mu Hm HD Hc) as (w1 & w2 & E & H). fold g in H.
  pose proof (gamma_nonneg Ein A Q) as Hg. fold g in Hg.
  pose proof (proj1 (H w1) (or_introl eq_refl)) as R1. pose proof (proj1 (H w2) (or_intror eq_refl)) as R2.
  destruct (roots_regular g mu w1 Hg Hg1 Hm Hm1 HD R1) as (X1 & W1 & N1 & D1). destruct (roots_regular g mu w2 Hg Hg1 Hm Hm1 HD R2) as (X2 & W2 & N2 & D2).
  assert (NZ : forall w, 0 < 1 + 2 * g * w + g * g -> 1 + g * w <> 0 -> (1 + g * w) / ((1 + 2 * g * w + g * g) * sqrt (1 + 2 * g * w + g * g)) <> 0).
  { intros w Hx Hd. assert (0 < sqrt (1 + 2 * g * w + g * g)) by (apply sqrt_lt_R0; exact Hx). apply Rmult_integral_contrapositive_currified; [exact Hd|]. apply Rinv_neq_0_compat. apply Rgt_not_eq. apply Rmult_lt_0_compat; assumption. }
  exists w1, w2. do 2 eexists. split; [exact W1|]. split; [exact W2|]. split; [intros w Hw; rewrite H; apply lab_cos_root; exact Hw|].
  split; [apply lab_cos_derive; exact X1|]. split; [apply lab_cos_derive; exact X2|]. split; [apply NZ; assumption|]. split; [apply NZ; assumption|].
  unfold cm_angle_pdf. rewrite E. f_equal. pose proof (jacobian_root Ein A Q w1 mu) as J1. pose proof (jacobian_root Ein A Q w2 mu) as J2. cbv zeta in J1, J2. fold g in J1, J2.
  rewrite J1, J2 by assumption. unfold at_angle. change (@nmul R NumR) with Rmult. change (@nadd R NumR) with Rplus. change (@nofZ R NumR 0) with 0. unfold Rdiv at 5 6.
  destruct (f Ein w1), (f Ein w2); unfold Rdiv; ring.
Qed.
(** for a recoil lighter than the projectile (g > 1) the branch 1 + g w < 0 gets a negative weight *)
Lemma jacobian_negative Ein A Q w : let g := @cm_gamma R NumR Ein A Q in
  -1 < w -> 1 < g -> 1 + g * w < 0 -> 0 < lab_cos g w < 1 /\ @angle_jacobian_q R NumR Ein A Q (lab_cos g w) w < 0.
Proof.
  intros g Hw Hg Hn. assert (W1 : w < 0) by nra. assert (GW : 0 < g + w) by lra.
  assert (HX : 0 < 1 + 2 * g * w + g * g) by nra. assert (HS : 0 < sqrt (1 + 2 * g * w + g * g)) by (apply sqrt_lt_R0; exact HX).
  assert (Hs : sqrt (1 + 2 * g * w + g * g) * sqrt (1 + 2 * g * w + g * g) = 1 + 2 * g * w + g * g) by (apply sqrt_sqrt; lra).
  split.
  - unfold lab_cos. split; [apply Rdiv_lt_0_compat; assumption|]. apply Rmult_lt_reg_r with (sqrt (1 + 2 * g * w + g * g)); [exact HS|].
    replace ((g + w) / sqrt (1 + 2 * g * w + g * g) * sqrt (1 + 2 * g * w + g * g)) with (g + w) by (field; lra). set (s := sqrt _) in *. nra.
  - pose proof (angle_jacobian_value Ein A Q w) as J. cbv zeta in J. fold g in J. rewrite J by lra. apply Rinv_lt_0_compat.
    unfold Rdiv. assert (0 < / ((1 + 2 * g * w + g * g) * sqrt (1 + 2 * g * w + g * g))) by (apply Rinv_0_lt_compat, Rmult_lt_0_compat; assumption). nra.
Qed.
