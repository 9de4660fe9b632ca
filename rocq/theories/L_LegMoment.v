(** * Orthogonality of the Legendre polynomials; moments of a Legendre series *)
From Coq Require Import Reals Lra Lia List Arith ZArith ZifyBool ZifyNat. From Coquelicot Require Import Coquelicot.
From Verif Require Import Base NumR M_Legendre S_Legendre L_Search L_Interp2 L_Legendre L_LegBound. Import ListNotations.
Local Open Scope R_scope.
Local Notation iR := (@is_RInt R_NormedModule).

Ltac req := match goal with |- @eq _ ?a ?b => change (@eq R a b) end.
Lemma P_cont n x : continuous (P n) x. Proof. eapply cont_of_derive, D_ok. Qed.
Lemma PP_cont n m x : continuous (fun y => P n y * P m y) x.
Proof. apply (continuous_mult (K := R_AbsRing) (P n) (P m)); apply P_cont. Qed.
Lemma PP_ex n m : ex_RInt (fun y => P n y * P m y) (-1) 1.
Proof. apply (@ex_RInt_continuous R_CompleteNormedModule). intros x _. apply PP_cont. Qed.
(** Legendre's equation also for P_0 *)
Lemma P_ode0 n x : (1 - x * x) * E2 n x - 2 * x * D n x = - (INR n * (INR n + 1) * P n x).
Proof. destruct n as [|n]; [rewrite E2_0, D_0, P_0; cbn [INR]; ring|]. rewrite P_ode. ring. Qed.
Lemma P_orth n m : n <> m -> iR (fun y => P n y * P m y) (-1) 1 0.
Proof.
  intros H. set (K := INR m * (INR m + 1) - INR n * (INR n + 1)).
  assert (HK : K <> 0).
  { unfold K. intros E. assert (F : (INR m - INR n) * (INR m + INR n + 1) = 0) by lra. pose proof (pos_INR m). pose proof (pos_INR n). apply Rmult_integral in F as [F|F]; [|lra]. apply H. apply INR_eq. lra. }
  pose (F := fun y => (1 - y * y) * (D n y * P m y - P n y * D m y)).
  assert (DF : forall y, is_derive F y (K * (P n y * P m y))).
  { intros y. replace (K * (P n y * P m y)) with ((- (1 * y + y * 1)) * (D n y * P m y - P n y * D m y) + (1 - y * y) * ((E2 n y * P m y + D n y * D m y) - (D n y * D m y + P n y * E2 m y))).
    - apply (dR_mult (fun y => 1 - y * y) (fun y => D n y * P m y - P n y * D m y)).
      + apply (is_derive_ext (fun y => 1 - y * y)); [reflexivity|]. replace (- (1 * y + y * 1)) with (0 - (1 * y + y * 1)) by ring. apply (dR_minus (fun _ => 1) (fun y => y * y)); [exact (is_derive_const (K := R_AbsRing) (V := R_NormedModule) 1 y)|]. apply dR_mult; apply dR_id.
      + apply dR_minus; apply dR_mult; first [apply E2_ok|apply D_ok].
    - pose proof (P_ode0 n y) as On. pose proof (P_ode0 m y) as Om. unfold K.
      transitivity (((1 - y * y) * E2 n y - 2 * y * D n y) * P m y - P n y * ((1 - y * y) * E2 m y - 2 * y * D m y)); [ring|]. rewrite On, Om. ring. }
  assert (I : iR (fun y => K * (P n y * P m y)) (-1) 1 (F 1 - F (-1))).
  { apply (is_RInt_derive F); [intros; apply DF|]. intros y _. apply (continuous_scal_r (K := R_AbsRing) (V := R_NormedModule) K (fun y => P n y * P m y)). apply PP_cont. }
  apply (iR_scal _ _ _ (/ K)) in I. apply (is_RInt_ext _ (fun y => P n y * P m y)) in I; [|intros y _; change (/ K * (K * (P n y * P m y)) = P n y * P m y); field; exact HK].
  eapply iR_val; [|exact I]. unfold F. ring.
Qed.
Lemma xPP_ex n m : ex_RInt (fun y => y * (P n y * P m y)) (-1) 1.
Proof. apply (@ex_RInt_continuous R_CompleteNormedModule). intros x _. apply (continuous_mult (K := R_AbsRing) (fun y => y) (fun y => P n y * P m y)); [apply continuous_id|apply PP_cont]. Qed.
Lemma P_norm n : iR (fun y => P n y * P n y) (-1) 1 (2 / (2 * INR n + 1)).
Proof.
  induction n as [|n IH].
  - apply (is_RInt_ext (fun _ => 1)); [intros x _; req; rewrite P_0; ring|]. eapply iR_val; [|apply iR_const]. cbn [INR]. field.
  - assert (HX' : exists X : R, iR (fun y => y * (P n y * P (S n) y)) (-1) 1 X) by exact (xPP_ex n (S n)). destruct HX' as [X HX]. assert (HJ' : exists J : R, iR (fun y => P (S n) y * P (S n) y) (-1) 1 J) by exact (PP_ex (S n) (S n)). destruct HJ' as [J HJ]. pose proof (pos_INR n) as Pn.
    assert (EX : (2 * INR n + 3) * X = (INR n + 1) * (2 / (2 * INR n + 1))).
    { assert (Z : iR (fun y => P n y * P (S (S n)) y) (-1) 1 0) by (apply P_orth; lia).
      assert (Q : iR (fun y => P n y * P (S (S n)) y) (-1) 1 ((2 * INR n + 3) / (INR n + 2) * X + (- (INR n + 1) / (INR n + 2)) * (2 / (2 * INR n + 1)))).
      { apply (is_RInt_ext (fun y => (2 * INR n + 3) / (INR n + 2) * (y * (P n y * P (S n) y)) + (- (INR n + 1) / (INR n + 2)) * (P n y * P n y))); [intros y _; req; rewrite P_SS; field; lra|]. apply iR_plus; apply iR_scal; assumption. }
      pose proof (is_RInt_unique (V := R_CompleteNormedModule) _ _ _ _ Z) as U1. pose proof (is_RInt_unique (V := R_CompleteNormedModule) _ _ _ _ Q) as U2. rewrite U1 in U2.
      apply (Rmult_eq_reg_r (/ (INR n + 2))); [|apply Rinv_neq_0_compat; lra].
      assert (V : (2 * INR n + 3) * X * / (INR n + 2) - (INR n + 1) * (2 / (2 * INR n + 1)) * / (INR n + 2) = 0); [|lra]. rewrite U2 at 1. unfold Rdiv. ring. }
    assert (EJ : (INR n + 1) * J = (2 * INR n + 1) * X).
    { destruct n as [|n].
      - cbn [INR] in *. assert (JX : J = X); [|lra]. rewrite <- (is_RInt_unique (V := R_CompleteNormedModule) _ _ _ _ HJ). rewrite <- (is_RInt_unique (V := R_CompleteNormedModule) _ _ _ _ HX). apply RInt_ext. intros y _. req. rewrite P_0, P_1. ring.
      - assert (Z : iR (fun y => P n y * P (S (S n)) y) (-1) 1 0) by (apply P_orth; lia).
        assert (Q : iR (fun y => P (S (S n)) y * P (S (S n)) y) (-1) 1 ((2 * INR n + 3) / (INR n + 2) * X + (- (INR n + 1) / (INR n + 2)) * 0)).
        { apply (is_RInt_ext (fun y => (2 * INR n + 3) / (INR n + 2) * (y * (P (S n) y * P (S (S n)) y)) + (- (INR n + 1) / (INR n + 2)) * (P n y * P (S (S n)) y))).
          - intros y _. req. assert (Q : forall z, (2 * INR n + 3) / (INR n + 2) * (y * (P (S n) y * z)) + - (INR n + 1) / (INR n + 2) * (P n y * z) = z * P (S (S n)) y) by (intros z; rewrite P_SS; pose proof (pos_INR n); field; lra). apply Q.
          - apply iR_plus; apply iR_scal; assumption. }
        pose proof (is_RInt_unique (V := R_CompleteNormedModule) _ _ _ _ HJ) as U1. pose proof (is_RInt_unique (V := R_CompleteNormedModule) _ _ _ _ Q) as U2. rewrite U1 in U2. rewrite U2, S_INR. pose proof (pos_INR n). field. lra. }
    eapply iR_val; [|exact HJ]. rewrite S_INR. apply (Rmult_eq_reg_l (INR n + 1)); [|lra]. rewrite EJ.
    assert (X = (INR n + 1) * (2 / (2 * INR n + 1)) / (2 * INR n + 3)) as -> by (rewrite <- EX; req; field; lra). req. field. lra.
Qed.
(** the k-th moment of a series is its k-th coefficient *)
Lemma series_moment a k : forall l, iR (fun y => series l a y * P k y) (-1) 1 (if (l <=? k)%nat then nth (k - l) a 0 else 0).
Proof.
  induction a as [|c a IH]; intros l.
  - apply (is_RInt_ext (fun _ => 0)); [intros; req; cbn; ring|]. eapply iR_val; [|apply iR_const]. destruct (l <=? k)%nat; [destruct (k - l)%nat|]; cbn; ring.
  - apply (is_RInt_ext (fun y => (2 * INR l + 1) / 2 * c * (P l y * P k y) + series (S l) a y * P k y)); [intros y _; req; cbn [series]; ring|].
    pose proof (pos_INR l) as Pl.
    destruct (Nat.eq_dec l k) as [->|N].
    + eapply iR_val; [|apply iR_plus; [apply iR_scal, P_norm|apply IH]]. rewrite Nat.leb_refl, Nat.sub_diag. replace (S k <=? k)%nat with false by (symmetry; apply Nat.leb_gt; lia). cbn [nth]. field. lra.
    + eapply iR_val; [|apply iR_plus; [apply iR_scal, P_orth, N|apply IH]]. destruct (Nat.leb_spec l k) as [C|C].
      * replace (S l <=? k)%nat with true by (symmetry; apply Nat.leb_le; lia). replace (k - l)%nat with (S (k - S l)) by lia. cbn [nth]. ring.
      * replace (S l <=? k)%nat with false by (symmetry; apply Nat.leb_gt; lia). ring.
Qed.
Lemma moment0 a k : iR (fun y => series 0 a y * P k y) (-1) 1 (nth k a 0).
Proof. pose proof (series_moment a k 0) as H. rewrite Nat.sub_0_r in H. exact H. Qed.
(** no moment of a density exceeds one *)
Lemma moment_bound a : (forall mu, -1 <= mu <= 1 -> 0 <= series 0 (1 :: a) mu) -> forall c, In c a -> Rabs c <= 1.
Proof.
  intros Pos c Hc. destruct (In_nth a c 0 Hc) as (k & _ & Ek). pose proof (moment0 (1 :: a) (S k)) as M. cbn [nth] in M. rewrite Ek in M.
  pose proof (series_normalised a) as N. apply Rabs_le. split.
  - pose proof (iR_scal _ _ _ (-1) _ N) as N'. replace (-1) with (-1 * 1) at 1 by ring. apply (is_RInt_le (fun x => -1 * series 0 (1 :: a) x) (fun y => series 0 (1 :: a) y * P (S k) y) (-1) 1); [lra|exact N'|exact M|].
    intros y Hy. pose proof (Pos y ltac:(lra)). pose proof (P_abs (S k) y ltac:(lra)) as B. apply Rabs_le_between in B. nra.
  - apply (is_RInt_le (fun y => series 0 (1 :: a) y * P (S k) y) (series 0 (1 :: a)) (-1) 1); [lra|exact M|exact N|].
    intros y Hy. pose proof (Pos y ltac:(lra)). pose proof (P_abs (S k) y ltac:(lra)) as B. apply Rabs_le_between in B. nra.
Qed.
