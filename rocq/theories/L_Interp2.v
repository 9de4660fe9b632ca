(** * Inversion and integration of the interpolation laws over R *)
From Coquelicot Require Import Coquelicot.
From Verif Require Import Base NumR M_Interp S_Interp L_Interp.
From Coq Require Import Psatz.
Local Open Scope R_scope.

Definition swap (i : interpolation) : interpolation :=
  match i with LinLog => LogLin | LogLin => LinLog | j => j end.

Lemma between_sign y1 y2 y : 0 < y1 * y2 -> Rmin y1 y2 <= y <= Rmax y1 y2 -> 0 < y1 * y.
Proof.
  intros H G. unfold Rmin, Rmax in G.
  destruct (prod_pos_cases _ _ H) as [[A B]|[A B]].
  - destruct (Rle_dec y1 y2); apply Rmult_lt_0_compat; lra.
  - replace (y1 * y) with ((- y1) * (- y)) by ring.
    destruct (Rle_dec y1 y2); apply Rmult_lt_0_compat; lra.
Qed.

Lemma invert_blend i y x1 y1 x2 y2 : i <> Histogram ->
  valid_points i x1 y1 x2 y2 -> y1 <> y2 -> Rmin y1 y2 <= y <= Rmax y1 y2 ->
  invert i y x1 y1 x2 y2 = blend (swap i) (tpar (swap i) y y1 y2) x1 x2.
Proof.
  intros Hi (Hx & Hlx & Hly) Hy H.
  destruct i; cbn [invert swap blend tpar]; unfold linlin_invert,
    linlog_invert, loglin_invert, loglog_invert; rnum; try easy.
  - field; lra.
  - replace (Reqb y2 y1) with false by (symmetry; apply Reqb_false; lra). cbn [negb].
    rewrite Rpow_pos by (apply same_sign_div; assumption). reflexivity.
  - replace (Reqb y1 y2) with false by (symmetry; apply Reqb_false; lra). cbn [negb].
    unfold Rdiv; ring.
  - rewrite Rpow_pos by (apply same_sign_div; assumption). reflexivity.
Qed.

Lemma tpar_blend i t x1 x2 : i <> Histogram -> x1 <> x2 ->
  (match i with LogLin | LogLog => 0 < x1 * x2 | _ => True end) ->
  tpar (swap i) (blend i t x1 x2) x1 x2 = t.
Proof.
  intros Hi H H'. destruct i; cbn [tpar blend swap]; try easy.
  - field; lra.
  - field; lra.
  - assert (x1 <> 0) by nra.
    replace (x1 * exp (t * ln (x2 / x1)) / x1) with (exp (t * ln (x2 / x1))) by (field; assumption).
    rewrite ln_exp. field. apply ln_ratio_ne; lra.
  - assert (x1 <> 0) by nra.
    replace (x1 * exp (t * ln (x2 / x1)) / x1) with (exp (t * ln (x2 / x1))) by (field; assumption).
    rewrite ln_exp. field. apply ln_ratio_ne; lra.
Qed.

Lemma blend_tpar i x x1 x2 : i <> Histogram -> x1 <> x2 ->
  (match i with LinLog | LogLog => 0 < x1 * x2 /\ 0 < x1 * x | _ => True end) ->
  blend (swap i) (tpar i x x1 x2) x1 x2 = x.
Proof.
  intros Hi H H'. destruct i; cbn [tpar blend swap]; try easy.
  - field; lra.
  - destruct H' as [H' H'']. assert (x1 <> 0) by nra. pose proof (ln_ratio_ne x1 x2 H' H).
    replace (ln (x / x1) / ln (x2 / x1) * ln (x2 / x1)) with (ln (x / x1)) by (field; assumption).
    rewrite exp_ln by (apply same_sign_div; assumption). field; assumption.
  - field; lra.
  - destruct H' as [H' H'']. assert (x1 <> 0) by nra. pose proof (ln_ratio_ne x1 x2 H' H).
    replace (ln (x / x1) / ln (x2 / x1) * ln (x2 / x1)) with (ln (x / x1)) by (field; assumption).
    rewrite exp_ln by (apply same_sign_div; assumption). field; assumption.
Qed.

Lemma swap_swap i : swap (swap i) = i.
Proof. destruct i; reflexivity. Qed.
Lemma swap_hist i : i <> Histogram -> swap i <> Histogram.
Proof. destruct i; cbn; easy. Qed.

Lemma tpar_sym i y y1 y2 : i <> Histogram -> y1 <> y2 ->
  (match i with LinLog | LogLog => 0 < y1 * y2 /\ 0 < y1 * y | _ => True end) ->
  tpar i y y1 y2 = 1 - tpar i y y2 y1.
Proof.
  intros Hi H H'. destruct i; cbn; try easy.
  1,3: field; lra.
  all: destruct H' as [H' H''];
    assert (0 < y2 * y1) by lra;
    assert (0 < y2 * y) by (destruct (prod_pos_cases _ _ H') as [[A B]|[A B]];
      destruct (prod_pos_cases _ _ H'') as [[C D]|[C D]]; nra);
    pose proof (ln_ratio_ne y1 y2 H' H) as L;
    rewrite !ln_ratio_abs in * by assumption; field; split; lra.
Qed.

Lemma tpar_range i y y1 y2 : i <> Histogram -> y1 <> y2 ->
  (match i with LinLog | LogLog => 0 < y1 * y2 | _ => True end) ->
  Rmin y1 y2 <= y <= Rmax y1 y2 -> 0 <= tpar i y y1 y2 <= 1.
Proof.
  intros Hi D S H. assert (S' : match i with LinLog | LogLog => 0 < y1 * y2 /\ 0 < y1 * y | _ => True end)
    by (destruct i; trivial; split; trivial; eapply between_sign; eauto).
  unfold Rmin, Rmax in H. destruct (Rle_dec y1 y2).
  - assert (y1 < y2) by lra.
    rewrite <- (tpar_0 i y1 y2) at 1 by assumption.
    rewrite <- (tpar_1 i y1 y2) by assumption.
    split; apply tpar_mono; auto; lra.
  - assert (L : y2 < y1) by lra. rewrite tpar_sym by assumption.
    assert (S2 : match i with LinLog | LogLog => 0 < y2 * y1 | _ => True end) by (destruct i; auto; lra).
    pose proof (tpar_mono i y2 y y2 y1 L S2 ltac:(lra) ltac:(lra) ltac:(lra)).
    pose proof (tpar_mono i y y1 y2 y1 L S2 ltac:(lra) ltac:(lra) ltac:(lra)).
    rewrite tpar_0 in H0 by assumption. rewrite tpar_1 in H1 by assumption. lra.
Qed.

Lemma invert_interpolate i x x1 y1 x2 y2 : i <> Histogram ->
  valid_points i x1 y1 x2 y2 -> y1 <> y2 -> x1 <= x <= x2 ->
  invert i (interpolate i x x1 y1 x2 y2) x1 y1 x2 y2 = x.
Proof.
  intros Hi H Hy Hx. pose proof (interp_between i _ _ _ _ x H Hx) as B.
  rewrite invert_blend by assumption. rewrite interpolate_blend by assumption.
  destruct H as (H1 & H2 & H3).
  rewrite tpar_blend by assumption. apply blend_tpar; auto; [lra|].
  destruct i; auto; split; auto; eapply same_sign_mid; eauto.
Qed.

Lemma invert_range i y x1 y1 x2 y2 : i <> Histogram ->
  valid_points i x1 y1 x2 y2 -> y1 <> y2 -> Rmin y1 y2 <= y <= Rmax y1 y2 ->
  x1 <= invert i y x1 y1 x2 y2 <= x2.
Proof.
  intros Hi H Hy B. rewrite invert_blend by assumption. destruct H as (H1 & H2 & H3).
  assert (V : match swap i with LogLin | LogLog => 0 < x1 * x2 | _ => True end) by (destruct i; auto).
  pose proof (tpar_range (swap i) y y1 y2 (swap_hist _ Hi) Hy
     ltac:(destruct i; cbn; auto) B) as [T0 T1].
  pose proof (blend_mono (swap i) _ _ x1 x2 V T0) as [M0 _].
  pose proof (blend_mono (swap i) _ _ x1 x2 V T1) as [M1 _].
  rewrite blend_0 in M0. rewrite (blend_1 _ _ _ (swap_hist _ Hi) V) in M1. lra.
Qed.

Lemma interpolate_invert i y x1 y1 x2 y2 : i <> Histogram ->
  valid_points i x1 y1 x2 y2 -> y1 <> y2 -> Rmin y1 y2 <= y <= Rmax y1 y2 ->
  interpolate i (invert i y x1 y1 x2 y2) x1 y1 x2 y2 = y.
Proof.
  intros Hi H Hy B. pose proof (invert_range i y _ _ _ _ Hi H Hy B) as R.
  rewrite interpolate_blend by assumption. rewrite invert_blend by assumption.
  destruct H as (H1 & H2 & H3).
  rewrite <- (swap_swap i) at 2. rewrite tpar_blend.
  - rewrite <- (swap_swap i) at 1. apply blend_tpar; auto using swap_hist.
    destruct i; cbn; auto; split; auto; eapply between_sign; eauto.
  - apply swap_hist; assumption.
  - lra.
  - destruct i; cbn; auto.
Qed.

(** ** Integrals *)
Lemma in_seg_mid a b x1 x2 x : x1 <= a <= x2 -> x1 <= b <= x2 -> Rmin a b <= x <= Rmax a b -> x1 <= x <= x2.
Proof. unfold Rmin, Rmax; destruct (Rle_dec a b); lra. Qed.

Lemma derive_RInt (f F : R -> R) a b v :
  (forall x, Rmin a b <= x <= Rmax a b -> is_derive F x (f x)) ->
  (forall x, Rmin a b <= x <= Rmax a b -> continuous f x) ->
  F b - F a = v -> is_RInt f a b v.
Proof. intros HF Hc <-. apply (is_RInt_derive F f a b HF Hc). Qed.

Lemma cont_of_derive (f : R -> R) x l : is_derive f x l -> continuous f x.
Proof. intros H. apply (ex_derive_continuous f). exists l; exact H. Qed.

Lemma histogram_integral a b x1 y1 x2 y2 :
  is_RInt (fun x => interpolate Histogram x x1 y1 x2 y2) a b (integrate Histogram a b x1 y1 x2 y2).
Proof.
  cbn. unfold histogram_interpolate, histogram_integrate; rnum.
  rewrite Rmult_comm. apply (is_RInt_const a b y1).
Qed.

Lemma linlin_integral a b x1 y1 x2 y2 : x1 <> x2 ->
  is_RInt (fun x => interpolate LinLin x x1 y1 x2 y2) a b (integrate LinLin a b x1 y1 x2 y2).
Proof.
  intros H. cbn. unfold linlin_interpolate, linlin_integrate; rnum.
  apply derive_RInt with (F := fun x => (x - x1) * (x - x1) / 2 / (x2 - x1) * (y2 - y1) + x * y1).
  - intros x _. auto_derive; [lra | field; lra].
  - intros x _. eapply cont_of_derive. auto_derive; [lra | reflexivity].
  - field; lra.
Qed.

Lemma linlog_integral a b x1 y1 x2 y2 : valid_points LinLog x1 y1 x2 y2 ->
  x1 <= a <= x2 -> x1 <= b <= x2 ->
  is_RInt (fun x => interpolate LinLog x x1 y1 x2 y2) a b (integrate LinLog a b x1 y1 x2 y2).
Proof.
  intros (Hx & Hs & _) Ha Hb. cbn. unfold linlog_interpolate, linlog_integrate; rnum.
  pose proof (ln_ratio_ne x1 x2 Hs ltac:(lra)) as L. assert (x1 <> 0) by nra.
  assert (G : forall x, Rmin a b <= x <= Rmax a b -> 0 < x / x1 /\ x <> 0).
  { intros x R. assert (M : 0 < x1 * x) by (eapply same_sign_mid; [exact Hs|]; apply (in_seg_mid a b); assumption).
    split; [apply same_sign_div; exact M | nra]. }
  apply derive_RInt with (F := fun x => x * y1 + (y2 - y1) * (x * ln (x / x1) - x) / ln (x2 / x1)).
  - intros x R. destruct (G x R). auto_derive; [auto | unfold Rminus, Rdiv in *; field; repeat split; auto].
  - intros x R. destruct (G x R). eapply cont_of_derive. auto_derive; [auto | reflexivity].
  - field; auto.
Qed.

Lemma loglin_integral a b x1 y1 x2 y2 : valid_points LogLin x1 y1 x2 y2 -> y1 <> y2 ->
  x1 <= a <= x2 -> x1 <= b <= x2 ->
  is_RInt (fun x => interpolate LogLin x x1 y1 x2 y2) a b (integrate LogLin a b x1 y1 x2 y2).
Proof.
  intros (Hx & _ & Hs) Hy Ha Hb. cbn. unfold loglin_interpolate, loglin_integrate; rnum.
  pose proof (same_sign_div _ _ Hs) as P.
  pose proof (ln_ratio_ne y1 y2 Hs Hy) as L. assert (y1 <> 0) by nra.
  rewrite !(Rpow_pos (y2 / y1)) by assumption. unfold Rpower.
  apply is_RInt_ext with (f := fun x => y1 * exp ((x - x1) / (x2 - x1) * ln (y2 / y1))).
  { intros x _. rewrite Rpow_pos by assumption. reflexivity. }
  apply derive_RInt with (F := fun x => y1 * (x2 - x1) / ln (y2 / y1) * exp ((x - x1) / (x2 - x1) * ln (y2 / y1))).
  - intros x _. auto_derive; [lra |]. unfold Rminus, Rdiv in *; field. repeat split; auto; lra.
  - intros x _. eapply cont_of_derive. auto_derive; [lra | reflexivity].
  - replace ((x1 - b) / (x1 - x2)) with ((b - x1) / (x2 - x1)) by (field; lra).
    replace ((x1 - a) / (x1 - x2)) with ((a - x1) / (x2 - x1)) by (field; lra). ring.
Qed.

Lemma loglog_integral a b x1 y1 x2 y2 : valid_points LogLog x1 y1 x2 y2 ->
  (ln (y2 / y1) / ln (x2 / x1) + 1 = 0 \/ 1 / 1000000000000 < Rabs (ln (y2 / y1) / ln (x2 / x1) + 1)) ->
  x1 <= a <= x2 -> x1 <= b <= x2 ->
  is_RInt (fun x => interpolate LogLog x x1 y1 x2 y2) a b (integrate LogLog a b x1 y1 x2 y2).
Proof.
  intros (Hx & Hs & Hsy) Hd Ha Hb. cbn. unfold loglog_interpolate, loglog_integrate; rnum.
  pose proof (ln_ratio_ne x1 x2 Hs ltac:(lra)) as L. assert (x1 <> 0) by nra.
  set (k := ln (y2 / y1) / ln (x2 / x1)) in *.
  assert (G : forall x, x1 <= x <= x2 -> 0 < x / x1 /\ x <> 0).
  { intros x R. assert (M : 0 < x1 * x) by (eapply same_sign_mid; [exact Hs|]; exact R).
    split; [apply same_sign_div; exact M | nra]. }
  assert (G' : forall x, Rmin a b <= x <= Rmax a b -> 0 < x / x1 /\ x <> 0)
    by (intros x R; apply G; apply (in_seg_mid a b); assumption).
  apply is_RInt_ext with (f := fun x => y1 * exp (k * ln (x / x1))).
  { intros x R. rewrite Rpow_pos; [reflexivity|]. apply G'. lra. }
  assert (C : forall x, Rmin a b <= x <= Rmax a b -> continuous (fun x => y1 * exp (k * ln (x / x1))) x).
  { intros x R. destruct (G' x R). eapply cont_of_derive. auto_derive; [auto | reflexivity]. }
  destruct (Rleb_spec (Rabs (k + 1)) (1 / 1000000000000)) as [R|R].
  - assert (K : k = -1) by (destruct Hd; lra).
    apply derive_RInt with (F := fun x => y1 * x1 * ln (x / x1)).
    + intros x Hx'. destruct (G' x Hx'). auto_derive; [auto|].
      fold (x / x1). rewrite K. replace (-1 * ln (x / x1)) with (- ln (x / x1)) by ring.
      rewrite exp_Ropp, exp_ln by assumption. field; auto.
    + exact C.
    + destruct (G a Ha), (G b Hb).
      replace (b / a) with ((b / x1) / (a / x1)) by (field; auto).
      rewrite (ln_div (b / x1) (a / x1)) by assumption. ring.
  - assert (K : k + 1 <> 0) by (intros E; rewrite E, Rabs_R0 in R; lra).
    apply derive_RInt with (F := fun x => y1 / (k + 1) * (x * exp (k * ln (x / x1)))).
    + intros x Hx'. destruct (G' x Hx'). auto_derive; [auto|]. unfold Rminus, Rdiv in *; field. repeat split; auto.
    + exact C.
    + rewrite !Rpow_pos by (apply G; assumption). unfold Rpower. ring.
Qed.

Lemma integrate_is_RInt i a b x1 y1 x2 y2 : valid_points i x1 y1 x2 y2 ->
  exact_integral_data i x1 y1 x2 y2 -> x1 <= a <= x2 -> x1 <= b <= x2 ->
  is_RInt (fun x => interpolate i x x1 y1 x2 y2) a b (integrate i a b x1 y1 x2 y2).
Proof.
  intros H D Ha Hb. destruct i; cbn [exact_integral_data] in D.
  - apply histogram_integral.
  - apply linlin_integral. destruct H; lra.
  - apply linlog_integral; assumption.
  - apply loglin_integral; assumption.
  - apply loglog_integral; assumption.
Qed.

Lemma integrate_additive i a b c x1 y1 x2 y2 : valid_points i x1 y1 x2 y2 ->
  x1 <= a <= x2 -> x1 <= b <= x2 -> x1 <= c <= x2 ->
  integrate i a b x1 y1 x2 y2 + integrate i b c x1 y1 x2 y2 = integrate i a c x1 y1 x2 y2.
Proof.
  intros (Hx & Hlx & Hly) Ha Hb Hc.
  destruct i; cbn [integrate]; unfold histogram_integrate, linlin_integrate, linlog_integrate,
    loglin_integrate, loglog_integrate; rnum.
  - ring.
  - field; lra.
  - pose proof (ln_ratio_ne x1 x2 Hlx ltac:(lra)) as L. field. exact L.
  - ring.
  - destruct (Rleb_spec (Rabs (ln (y2 / y1) / ln (x2 / x1) + 1)) (1 / 1000000000000)).
    + assert (x1 <> 0) by nra.
      assert (G : forall x, x1 <= x <= x2 -> 0 < x / x1 /\ x <> 0).
      { intros x Rg. assert (M : 0 < x1 * x) by (eapply same_sign_mid; [exact Hlx|]; exact Rg).
        split; [apply same_sign_div; exact M | nra]. }
      destruct (G a Ha), (G b Hb), (G c Hc).
      replace (b / a) with ((b / x1) / (a / x1)) by (field; auto).
      replace (c / b) with ((c / x1) / (b / x1)) by (field; auto).
      replace (c / a) with ((c / x1) / (a / x1)) by (field; auto).
      rewrite (ln_div (b / x1) (a / x1)), (ln_div (c / x1) (b / x1)), (ln_div (c / x1) (a / x1))
        by assumption. ring.
    + ring.
Qed.
