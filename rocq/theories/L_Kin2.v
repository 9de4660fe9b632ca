(** * Change of variables between frames; elastic objects; binary64 facts *)
From Verif Require Import Base NumR L_Search M_Kin S_Kin L_Kin.
From Coquelicot Require Import Coquelicot.
Local Open Scope R_scope.

Definition cm_energy (Ein A mu E : R) : R := snd (@lab_to_cm R NumR Ein A mu E).
Definition cm_cosine (Ein A mu E : R) : R := fst (@lab_to_cm R NumR Ein A mu E).

Lemma cm_energy_form Ein A mu E : 0 < A -> 0 <= Ein -> 0 < E ->
  cm_energy Ein A mu E = E + / (A + 1) * / (A + 1) * Ein - 2 * mu * / (A + 1) * sqrt Ein * sqrt E.
Proof.
  intros. unfold cm_energy. destruct (lab_to_cm Ein A mu E) as [m e] eqn:L. apply lab_to_cm_eq in L; try assumption. exact (proj1 L).
Qed.
Lemma cm_cosine_form Ein A mu E : 0 < A -> 0 <= Ein -> 0 < E -> 0 < cm_energy Ein A mu E ->
  cm_cosine Ein A mu E = (sqrt E * mu - / (A + 1) * sqrt Ein) / sqrt (cm_energy Ein A mu E).
Proof.
  intros ? ? ? HC. unfold cm_cosine, cm_energy in *. destruct (lab_to_cm Ein A mu E) as [m e] eqn:L. apply lab_to_cm_eq in L; try assumption.
  cbn [fst snd] in *. destruct L as [_ L]. rewrite <- (L HC). assert (0 < sqrt e) by (apply sqrt_lt_R0; assumption). field. lra.
Qed.

(** the functions in closed form, differentiable *)
Section J.
  Variables k s mu E : R.
  Hypothesis HE : 0 < E.
  Let Ec m e := e + k * k * (s * s) - 2 * m * k * s * sqrt e.
  Let Mc m e := (sqrt e * m - k * s) / sqrt (Ec m e).
  Hypothesis HEc : 0 < Ec mu E.
  Lemma dEc_dE : is_derive (fun e => Ec mu e) E (1 - mu * k * s / sqrt E).
  Proof.
    unfold Ec. auto_derive; [lra|]. assert (0 < sqrt E) by (apply sqrt_lt_R0; lra). field. lra.
  Qed.
  Lemma dEc_dm : is_derive (fun m => Ec m E) mu (- 2 * k * s * sqrt E).
  Proof. unfold Ec. auto_derive; [trivial|]. ring. Qed.
  Lemma dMc_dE : is_derive (fun e => Mc mu e) E
    (mu / (2 * sqrt E * sqrt (Ec mu E)) - (sqrt E * mu - k * s) * (1 - mu * k * s / sqrt E) / (2 * Ec mu E * sqrt (Ec mu E))).
  Proof.
    pose proof HEc as H0. unfold Mc, Ec in *.
    assert (0 < sqrt E) by (apply sqrt_lt_R0; lra).
    set (X := E + k * k * (s * s) - 2 * mu * k * s * sqrt E) in *.
    assert (0 < sqrt X) by (apply sqrt_lt_R0; lra).
    auto_derive.
    - fold X. change (E + k * k * (s * s) + - (2 * mu * k * s * sqrt E)) with X. repeat split; lra.
    - change (E + k * k * (s * s) + - (2 * mu * k * s * sqrt E)) with X.
      assert (sqrt X * sqrt X = X) by (apply sqrt_sqrt; lra).
      set (r := sqrt X) in *. replace (2 * X * r) with (2 * (r * r) * r) by (rewrite H2; ring).
      set (w := sqrt E) in *. clearbody r w. field. lra.
  Qed.
  Lemma dMc_dm : is_derive (fun m => Mc m E) mu
    (sqrt E / sqrt (Ec mu E) + (sqrt E * mu - k * s) * (k * s * sqrt E) / (Ec mu E * sqrt (Ec mu E))).
  Proof.
    pose proof HEc as H0. unfold Mc, Ec in *.
    set (X := E + k * k * (s * s) - 2 * mu * k * s * sqrt E) in *.
    assert (0 < sqrt X) by (apply sqrt_lt_R0; lra).
    auto_derive.
    - change (E + k * k * (s * s) + - (2 * mu * k * s * sqrt E)) with X. repeat split; lra.
    - change (E + k * k * (s * s) + - (2 * mu * k * s * sqrt E)) with X.
      assert (sqrt X * sqrt X = X) by (apply sqrt_sqrt; lra).
      set (r := sqrt X) in *. replace (X * r) with ((r * r) * r) by (rewrite H1; ring).
      set (w := sqrt E) in *. clearbody r w. field. lra.
  Qed.
End J.

Lemma jacobian_det Ein A mu E : 0 < A -> 0 <= Ein -> 0 < E -> 0 < cm_energy Ein A mu E ->
  exists mm me em ee,
    is_derive (fun m => cm_cosine Ein A m E) mu mm /\ is_derive (fun e => cm_cosine Ein A mu e) E me /\
    is_derive (fun m => cm_energy Ein A m E) mu em /\ is_derive (fun e => cm_energy Ein A mu e) E ee /\
    mm * ee - me * em = @jacobian R NumR E (cm_energy Ein A mu E).
Proof.
  intros HA HI HE HC. set (k := / (A + 1)). set (s := sqrt Ein).
  assert (Hss : s * s = Ein) by (apply sqrt_sqrt; lra).
  set (F := fun m e => e + k * k * (s * s) - 2 * m * k * s * sqrt e).
  set (M := fun m e => (sqrt e * m - k * s) / sqrt (F m e)).
  assert (EF : forall m e, 0 < e -> F m e = cm_energy Ein A m e).
  { intros. rewrite cm_energy_form by assumption. unfold F. fold k s. rewrite Hss. reflexivity. }
  assert (EM : forall m e, 0 < e -> 0 < F m e -> M m e = cm_cosine Ein A m e).
  { intros. unfold M. rewrite cm_cosine_form; try assumption; rewrite <- ?EF by assumption; [reflexivity|assumption]. }
  assert (HF : 0 < F mu E) by (rewrite EF by assumption; assumption).
  assert (LE : locally E (fun e => 0 < e)) by (apply open_gt; assumption).
  assert (D1 := dEc_dE k s mu E HE). assert (D2 := dEc_dm k s mu E).
  assert (D3 := dMc_dE k s mu E HE HF). assert (D4 := dMc_dm k s mu E HF).
  fold (F mu E) in D3, D4.
  assert (CE : locally E (fun e => 0 < F mu e)).
  { apply (ex_derive_continuous (fun e => F mu e) E (ex_intro _ _ D1)). exact (open_gt 0 _ HF). }
  assert (CM : locally mu (fun m => 0 < F m E)).
  { apply (ex_derive_continuous (fun m => F m E) mu (ex_intro _ _ D2)). exact (open_gt 0 _ HF). }
  do 4 eexists. split; [|split; [|split; [|split]]].
  - eapply is_derive_ext_loc; [|exact D4]. eapply filter_imp; [|exact CM]. intros m Hm. apply EM; assumption.
  - eapply is_derive_ext_loc; [|exact D3]. eapply filter_imp; [|exact (filter_and _ _ LE CE)]. intros e [He Hm]. apply EM; assumption.
  - eapply is_derive_ext_loc; [|exact D2]. eapply filter_imp; [|exact CM]. intros m Hm. apply EF; assumption.
  - eapply is_derive_ext_loc; [|exact D1]. eapply filter_imp; [|exact LE]. intros e He. apply EF; assumption.
  - rewrite <- EF by assumption. unfold jacobian. rnum. rewrite sqrt_div_pos by lra.
    assert (0 < sqrt (F mu E)) by (apply sqrt_lt_R0; assumption).
    assert (0 < sqrt E) by (apply sqrt_lt_R0; assumption).
    cbv beta. change (E + k * k * (s * s) - 2 * mu * k * s * sqrt E) with (F mu E).
    set (X := F mu E) in *. set (r := sqrt X) in *. set (w := sqrt E) in *. clearbody X r w. field. lra.
Qed.

(** two-body: derivative of the lab cosine with respect to the CM cosine *)
Lemma lab_cos_derive g w : 0 < 1 + 2 * g * w + g * g ->
  is_derive (lab_cos g) w ((1 + g * w) / ((1 + 2 * g * w + g * g) * sqrt (1 + 2 * g * w + g * g))).
Proof.
  intros H. unfold lab_cos.
  assert (0 < sqrt (1 + 2 * g * w + g * g)) by (apply sqrt_lt_R0; lra).
  auto_derive; [repeat split; lra|].
  set (X := 1 + 2 * g * w + g * g) in *. assert (Hs : sqrt X * sqrt X = X) by (apply sqrt_sqrt; lra).
  replace (X * sqrt X) with (sqrt X * sqrt X * sqrt X) by (rewrite Hs; ring).
  assert (HX : sqrt X * sqrt X = 1 + 2 * g * w + g * g) by exact Hs.
  set (r := sqrt X) in *. clearbody r. clear Hs.
  apply Rmult_eq_reg_r with (2 * (r * r * r)); [|apply Rgt_not_eq; repeat apply Rmult_lt_0_compat; lra].
  field_simplify; [|lra|lra]. replace (r ^ 2) with (r * r) by ring. rewrite HX. ring.
Qed.
Lemma angle_jacobian_value Ein A Q w :
  let g := @cm_gamma R NumR Ein A Q in
  0 < 1 + 2 * g * w + g * g -> -1 < w < 1 -> 0 < g + w -> 1 + g * w <> 0 ->
  @angle_jacobian_q R NumR Ein A Q (lab_cos g w) w = / ((1 + g * w) / ((1 + 2 * g * w + g * g) * sqrt (1 + 2 * g * w + g * g))).
Proof.
  intros g HX Hw Hg H1. unfold angle_jacobian_q. fold g. clearbody g. rnum.
  rewrite Rpow2 by assumption. unfold lab_cos.
  assert (0 < sqrt (1 + 2 * g * w + g * g)) by (apply sqrt_lt_R0; lra).
  assert (Hs : sqrt (1 + 2 * g * w + g * g) * sqrt (1 + 2 * g * w + g * g) = 1 + 2 * g * w + g * g) by (apply sqrt_sqrt; lra).
  assert (H2 : 1 - (g + w) / sqrt (1 + 2 * g * w + g * g) * ((g + w) / sqrt (1 + 2 * g * w + g * g)) =
               (1 - w * w) / (1 + 2 * g * w + g * g)).
  { rewrite <- Hs at 3. set (r := sqrt _) in *. apply Rmult_eq_reg_r with (r * r); [|nra].
    field_simplify; [|lra|lra]. replace (r ^ 2) with (r * r) by ring. rewrite Hs. ring. }
  rewrite H2. rewrite sqrt_div_pos by nra.
  assert (0 < sqrt (1 - w * w)) by (apply sqrt_lt_R0; nra).
  replace (1 + 2 * g * w + g * g) with (sqrt (1 + 2 * g * w + g * g) * sqrt (1 + 2 * g * w + g * g)) at 4 by exact Hs.
  set (r := sqrt (1 + 2 * g * w + g * g)) in *. set (q := sqrt (1 - w * w)) in *. clearbody r q. field. repeat split; lra.
Qed.
