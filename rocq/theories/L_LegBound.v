(** * Bounds on Legendre polynomials and their derivatives; the scanned maximum of a Legendre density *)
From Coq Require Import Reals Lra Lia List Arith ZArith ZifyBool ZifyNat. From Coquelicot Require Import Coquelicot.
From Verif Require Import Base NumR M_Legendre S_Legendre L_Search L_Interp2 L_Legendre. Import ListNotations.
Local Open Scope R_scope.
Local Notation iR := (@is_RInt R_NormedModule).

(** first and second derivatives: P'_{n+2} = P'_n + (2n+3) P_{n+1} *)
Fixpoint DD2 (n : nat) (x : R) : (R * R) * (R * R) :=
  match n with
  | O => ((0, 1), (0, 0))
  | S m => let '((d0, d1), (e0, e1)) := DD2 m x in ((d1, d0 + (2 * INR m + 3) * P (S m) x), (e1, e0 + (2 * INR m + 3) * d1))
  end.
Definition D (n : nat) (x : R) : R := fst (fst (DD2 n x)).
Definition E2 (n : nat) (x : R) : R := fst (snd (DD2 n x)).
Lemma DD2_snd n x : snd (fst (DD2 n x)) = D (S n) x /\ snd (snd (DD2 n x)) = E2 (S n) x.
Proof. unfold D, E2. cbn [DD2]. destruct (DD2 n x) as [[d0 d1] [e0 e1]]. split; reflexivity. Qed.
Lemma D_SS n x : D (S (S n)) x = D n x + (2 * INR n + 3) * P (S n) x.
Proof. rewrite <- (proj1 (DD2_snd (S n) x)). cbn [DD2]. unfold D. destruct (DD2 n x) as [[d0 d1] [e0 e1]]. reflexivity. Qed.
Lemma E2_SS n x : E2 (S (S n)) x = E2 n x + (2 * INR n + 3) * D (S n) x.
Proof. rewrite <- (proj2 (DD2_snd (S n) x)). cbn [DD2]. rewrite <- (proj1 (DD2_snd n x)). unfold E2. destruct (DD2 n x) as [[d0 d1] [e0 e1]]. reflexivity. Qed.
Lemma D_0 x : D 0 x = 0. Proof. reflexivity. Qed.
Lemma D_1 x : D 1 x = 1. Proof. reflexivity. Qed.
Lemma E2_0 x : E2 0 x = 0. Proof. reflexivity. Qed.
Lemma E2_1 x : E2 1 x = 0. Proof. reflexivity. Qed.
Lemma pair_ind (Q : nat -> Prop) : Q 0%nat -> Q 1%nat -> (forall n, Q n -> Q (S n) -> Q (S (S n))) -> forall n, Q n.
Proof. intros H0 H1 H n. enough (Q n /\ Q (S n)) by tauto. induction n as [|n [A B]]; [tauto|]. split; [exact B|]. apply H; assumption. Qed.
Lemma D_ok n : forall x, is_derive (P n) x (D n x).
Proof.
  induction n as [| |n IH IHS] using pair_ind.
  - intros x. rewrite D_0. apply (dR_ext (fun _ : R => 1)); [reflexivity|]. exact (is_derive_const (K := R_AbsRing) (V := R_NormedModule) 1 x).
  - intros x. rewrite D_1. apply (dR_ext (fun t : R => t)); [reflexivity|]. exact (is_derive_id (K := R_AbsRing) x).
  - intros x. destruct (P_derive n) as (d1 & d2 & D1 & D2 & B & C). destruct (P_derive (S n)) as (d2' & d3 & D2' & D3 & B' & C').
    assert (X : d2' x = d2 x) by (transitivity (Derive (P (S n)) x); [symmetry; apply is_derive_unique, D2'|apply is_derive_unique, D2]). assert (Y : D n x = d1 x) by (transitivity (Derive (P n) x); [symmetry; apply is_derive_unique, IH|apply is_derive_unique, D1]).
    rewrite D_SS, Y. replace (d1 x + (2 * INR n + 3) * P (S n) x) with (d3 x); [apply D3|]. rewrite B', X. specialize (C x). rewrite !S_INR in *. lra.
Qed.
Lemma E2_ok n : forall x, is_derive (D n) x (E2 n x).
Proof.
  induction n as [| |n IH IHS] using pair_ind.
  - intros x. rewrite E2_0. apply (dR_ext (fun _ : R => 0)); [reflexivity|]. exact (is_derive_const (K := R_AbsRing) (V := R_NormedModule) 0 x).
  - intros x. rewrite E2_1. apply (dR_ext (fun _ : R => 1)); [reflexivity|]. exact (is_derive_const (K := R_AbsRing) (V := R_NormedModule) 1 x).
  - intros x. rewrite E2_SS. apply (dR_ext (fun x => D n x + (2 * INR n + 3) * P (S n) x)); [intros t; symmetry; apply D_SS|]. apply (is_derive_plus (K := R_AbsRing) (V := R_NormedModule) (D n) (fun x => (2 * INR n + 3) * P (S n) x)); [apply IH|apply dR_scal, D_ok].
Qed.
Lemma D_rel n x : D (S n) x = x * D n x + INR (S n) * P n x /\ x * D (S n) x - D n x = INR (S n) * P (S n) x.
Proof.
  destruct (P_derive n) as (d1 & d2 & D1 & D2 & B & C). assert (X : D (S n) x = d2 x) by (transitivity (Derive (P (S n)) x); [symmetry; apply is_derive_unique, D_ok|apply is_derive_unique, D2]). assert (Y : D n x = d1 x) by (transitivity (Derive (P n) x); [symmetry; apply is_derive_unique, D_ok|apply is_derive_unique, D1]).
  rewrite X, Y. split; [apply B|apply C].
Qed.
(** Legendre's equation *)
Lemma P_ode n x : (1 - x * x) * E2 (S n) x = 2 * x * D (S n) x - INR (S n) * (INR (S n) + 1) * P (S n) x.
Proof.
  pose (m := INR (S n)). assert (U : forall y, (1 - y * y) * D (S n) y = m * (P n y - y * P (S n) y)). { intros y. destruct (D_rel n y) as [B C]. fold m in B, C. rewrite Rmult_minus_distr_r, Rmult_1_l. replace (y * y * D (S n) y) with (y * (y * D (S n) y)) by ring. replace (y * D (S n) y) with (D n y + m * P (S n) y) by lra. rewrite B. ring. }
  assert (L : is_derive (fun y => (1 - y * y) * D (S n) y) x (-2 * x * D (S n) x + (1 - x * x) * E2 (S n) x)). { apply (dR_mult (fun y => 1 - y * y)); [auto_derive; [exact I|ring]|apply E2_ok]. }
  assert (Rr : is_derive (fun y => m * (P n y - y * P (S n) y)) x (m * (D n x - (1 * P (S n) x + x * D (S n) x)))). { apply dR_scal. apply (dR_minus (P n) (fun y => y * P (S n) y)); [apply D_ok|]. apply (dR_mult (fun y => y)); [apply dR_id|apply D_ok]. }
  apply (dR_ext _ _ _ _ U) in L. assert (E1 : -2 * x * D (S n) x + (1 - x * x) * E2 (S n) x = m * (D n x - (1 * P (S n) x + x * D (S n) x))) by (etransitivity; [symmetry; exact (is_derive_unique _ _ _ L)|exact (is_derive_unique _ _ _ Rr)]). destruct (D_rel n x) as [_ C]. fold m in C |- *. replace (D n x) with (x * D (S n) x - m * P (S n) x) in E1 by lra. lra.
Qed.
Lemma mono_deriv (f g : R -> R) a b : a <= b -> (forall x, is_derive f x (g x)) -> (forall x, a <= x <= b -> 0 <= g x) -> f a <= f b.
Proof.
  intros Hab Df Pg. destruct (MVT_gen f a b g) as (c & Hc & E).
  - intros x _. apply Df.
  - intros x _. apply continuity_pt_filterlim. eapply cont_of_derive, Df.
  - rewrite Rmin_left, Rmax_right in Hc by lra. pose proof (Pg c Hc). nra.
Qed.
Lemma P_abs n x : -1 <= x <= 1 -> Rabs (P n x) <= 1.
Proof.
  intros Hx. destruct n as [|n]; [rewrite P_0, Rabs_R1; lra|]. set (m := INR (S n)). assert (Pm : 0 < m) by (apply lt_0_INR; lia). set (K := m * (m + 1)). assert (PK : 0 < K) by (unfold K; nra).
  pose (F := fun y => P (S n) y * P (S n) y + / K * ((1 - y * y) * (D (S n) y * D (S n) y))).
  assert (DF : forall y, is_derive F y (2 / K * (y * (D (S n) y * D (S n) y)))).
  { intros y. pose proof (P_ode n y) as O. fold m in O. fold K in O.
    replace (2 / K * (y * (D (S n) y * D (S n) y))) with ((D (S n) y * P (S n) y + P (S n) y * D (S n) y) + / K * (-2 * y * (D (S n) y * D (S n) y) + (1 - y * y) * (E2 (S n) y * D (S n) y + D (S n) y * E2 (S n) y))).
    - apply (is_derive_plus (K := R_AbsRing) (V := R_NormedModule) (fun y => P (S n) y * P (S n) y) (fun y => / K * ((1 - y * y) * (D (S n) y * D (S n) y)))); [apply dR_mult; apply D_ok|]. apply dR_scal. apply (dR_mult (fun y => 1 - y * y) (fun y => D (S n) y * D (S n) y)); [auto_derive; [exact I|ring]|]. apply dR_mult; apply E2_ok.
    - replace ((1 - y * y) * (E2 (S n) y * D (S n) y + D (S n) y * E2 (S n) y)) with (2 * D (S n) y * ((1 - y * y) * E2 (S n) y)) by ring. rewrite O. field. lra. }
  assert (F1 : F 1 = 1) by (unfold F; rewrite (proj2 (P_at_1 n)); ring).
  assert (Fm : F (-1) = 1). { unfold F. rewrite (proj2 (P_at_m1 n)). rewrite <- Rpow_mult_distr. replace (-1 * -1) with 1 by ring. rewrite pow1. ring. }
  assert (B : F x <= 1).
  { destruct (Rle_dec 0 x) as [C|C].
    - rewrite <- F1. apply (mono_deriv F _ x 1 ltac:(lra) DF). intros y Hy. apply Rmult_le_pos; [left; apply Rdiv_lt_0_compat; lra|]. apply Rmult_le_pos; [lra|nra].
    - rewrite <- Fm. enough (- F (-1) <= - F x) by lra. apply (mono_deriv (fun y => - F y) (fun y => - (2 / K * (y * (D (S n) y * D (S n) y)))) (-1) x ltac:(lra)).
      + intros y. apply (is_derive_opp (K := R_AbsRing) (V := R_NormedModule) F). apply DF.
      + intros y Hy. assert (0 <= 2 / K * (- y * (D (S n) y * D (S n) y))); [|nra]. apply Rmult_le_pos; [left; apply Rdiv_lt_0_compat; lra|]. apply Rmult_le_pos; [lra|nra]. }
  unfold F in B. assert (0 <= / K * ((1 - x * x) * (D (S n) x * D (S n) x))). { apply Rmult_le_pos; [left; apply Rinv_0_lt_compat; lra|]. apply Rmult_le_pos; nra. }
  apply Rabs_le. nra.
Qed.
Lemma D_abs n x : -1 <= x <= 1 -> Rabs (D n x) <= INR n * (INR n + 1) / 2.
Proof.
  intros Hx. induction n as [| |n IH IHS] using pair_ind.
  - rewrite D_0, Rabs_R0. cbn. lra.
  - rewrite D_1, Rabs_R1. cbn. lra.
  - rewrite D_SS. eapply Rle_trans; [apply Rabs_triang|]. rewrite Rabs_mult. pose proof (P_abs (S n) x Hx). pose proof (pos_INR n). rewrite (Rabs_right (2 * INR n + 3)) by lra. rewrite !S_INR. nra.
Qed.
Lemma E2_abs n x : -1 <= x <= 1 -> Rabs (E2 n x) <= (INR n - 1) * INR n * (INR n + 1) * (INR n + 2) / 8.
Proof.
  intros Hx. induction n as [| |n IH IHS] using pair_ind.
  - rewrite E2_0, Rabs_R0. cbn. lra.
  - rewrite E2_1, Rabs_R0. cbn. lra.
  - rewrite E2_SS. eapply Rle_trans; [apply Rabs_triang|]. rewrite Rabs_mult. pose proof (D_abs (S n) x Hx) as B. pose proof (pos_INR n). rewrite (Rabs_right (2 * INR n + 3)) by lra. rewrite !S_INR in *.
    apply (Rmult_le_compat_l (2 * INR n + 3)) in B; [|lra]. set (k := INR n) in *. replace ((k + 1 + 1 - 1) * (k + 1 + 1) * (k + 1 + 1 + 1) * (k + 1 + 1 + 2) / 8) with ((k - 1) * k * (k + 1) * (k + 2) / 8 + (2 * k + 3) * ((k + 1) * (k + 1 + 1) / 2)) by field. lra.
Qed.
(** the sum of (2l+1)/2 |a_l| max |P''_l| *)
Fixpoint curvature (l0 : nat) (a : list R) : R :=
  match a with [] => 0 | c :: t => (2 * INR l0 + 1) / 2 * Rabs c * ((INR l0 - 1) * INR l0 * (INR l0 + 1) * (INR l0 + 2) / 8) + curvature (S l0) t end.
Fixpoint series1 (l0 : nat) (a : list R) (x : R) : R := match a with [] => 0 | c :: t => (2 * INR l0 + 1) / 2 * c * D l0 x + series1 (S l0) t x end.
Fixpoint series2 (l0 : nat) (a : list R) (x : R) : R := match a with [] => 0 | c :: t => (2 * INR l0 + 1) / 2 * c * E2 l0 x + series2 (S l0) t x end.
Lemma series_d1 a : forall l x, is_derive (series l a) x (series1 l a x).
Proof.
  induction a as [|c a IH]; intros l x; cbn [series1].
  - apply (dR_ext (fun _ : R => 0)); [reflexivity|]. exact (is_derive_const (K := R_AbsRing) (V := R_NormedModule) 0 x).
  - apply (dR_ext (fun x => (2 * INR l + 1) / 2 * c * P l x + series (S l) a x)); [reflexivity|]. apply (is_derive_plus (K := R_AbsRing) (V := R_NormedModule) (fun x => (2 * INR l + 1) / 2 * c * P l x) (series (S l) a)); [apply dR_scal, D_ok|apply IH].
Qed.
Lemma series_d2 a : forall l x, is_derive (series1 l a) x (series2 l a x).
Proof.
  induction a as [|c a IH]; intros l x; cbn [series2].
  - apply (dR_ext (fun _ : R => 0)); [reflexivity|]. exact (is_derive_const (K := R_AbsRing) (V := R_NormedModule) 0 x).
  - apply (dR_ext (fun x => (2 * INR l + 1) / 2 * c * D l x + series1 (S l) a x)); [reflexivity|]. apply (is_derive_plus (K := R_AbsRing) (V := R_NormedModule) (fun x => (2 * INR l + 1) / 2 * c * D l x) (series1 (S l) a)); [apply dR_scal, E2_ok|apply IH].
Qed.
Lemma series2_abs a x : -1 <= x <= 1 -> forall l, Rabs (series2 l a x) <= curvature l a.
Proof.
  intros Hx. induction a as [|c a IH]; intros l; cbn [series2 curvature]; [rewrite Rabs_R0; lra|]. eapply Rle_trans; [apply Rabs_triang|]. apply Rplus_le_compat; [|apply IH]. rewrite !Rabs_mult. pose proof (pos_INR l). rewrite (Rabs_right ((2 * INR l + 1) / 2)) by lra. apply Rmult_le_compat_l; [|apply E2_abs; exact Hx]. apply Rmult_le_pos; [lra|apply Rabs_pos].
Qed.
(** the scan misses little *)
Section Scan.
  Variables (f f1 f2 : R -> R) (M C : R).
  Hypothesis D1 : forall x, is_derive f x (f1 x).
  Hypothesis D2 : forall x, is_derive f1 x (f2 x).
  Hypothesis B2 : forall x, -1 <= x <= 1 -> Rabs (f2 x) <= C.
  Hypothesis Sc : forall k, (k <= 2000)%nat -> f (-1 + INR k / 1000) <= M.
  Lemma nearest x : -1 <= x <= 1 -> exists k, (k <= 2000)%nat /\ Rabs (-1 + INR k / 1000 - x) <= / 2000.
  Proof.
    intros Hx. pose (r := (x + 1) * 1000 + / 2). destruct (archimed r) as [A1 A2]. set (z := (up r - 1)%Z). assert (Zz : IZR z <= r < IZR z + 1) by (unfold z; rewrite minus_IZR; lra).
    assert (0 <= z)%Z by (apply Z.lt_succ_r, lt_IZR; unfold Z.succ; rewrite plus_IZR; unfold r in *; lra). assert (z <= 2000)%Z by (apply Z.lt_succ_r, lt_IZR; unfold Z.succ; rewrite plus_IZR; unfold r in *; lra).
    exists (Z.to_nat z). split; [lia|]. rewrite INR_IZR_INZ, Z2Nat.id by lia. apply Rabs_le. unfold r in *. lra.
  Qed.
  Lemma taylor x y : -1 <= x <= 1 -> -1 <= y <= 1 -> f1 x = 0 -> f x - f y <= C / 2 * ((y - x) * (y - x)).
  Proof.
    intros Hx Hy Z. assert (C0 : 0 <= C) by (pose proof (B2 x Hx); pose proof (Rabs_pos (f2 x)); lra).
    (* |f1 t| <= C |t - x| *)
    assert (F1 : forall t, -1 <= t <= 1 -> Rabs (f1 t) <= C * Rabs (t - x)).
    { intros t Ht. destruct (MVT_gen f1 x t f2) as (c & Hc & E); [intros; apply D2|intros z _; apply continuity_pt_filterlim; eapply cont_of_derive, D2|]. rewrite Z, Rminus_0_r in E. rewrite E, Rabs_mult. apply Rmult_le_compat_r; [apply Rabs_pos|]. apply B2.
      unfold Rmin, Rmax in Hc. destruct (Rle_dec x t); lra. }
    (* g t = f t + C/2 (t-x)^2 has g' of the sign of t - x *)
    pose (g := fun t => f t + C / 2 * ((t - x) * (t - x))). assert (Dg : forall t, is_derive g t (f1 t + C * (t - x))).
    { intros t. apply (is_derive_plus (K := R_AbsRing) (V := R_NormedModule) f (fun t => C / 2 * ((t - x) * (t - x)))); [apply D1|]. auto_derive; [exact I|field]. }
    enough (G : g x <= g y) by (unfold g in G; replace ((x - x) * (x - x)) with 0 in G by ring; lra).
    destruct (Rle_dec x y) as [L|L].
    - apply (mono_deriv g _ x y L Dg). intros t Ht. pose proof (F1 t ltac:(lra)) as Q. apply Rabs_le_between in Q. rewrite (Rabs_right (t - x)) in Q by lra. lra.
    - enough (- g y <= - g x) by lra. apply (mono_deriv (fun t => - g t) (fun t => - (f1 t + C * (t - x))) y x ltac:(lra)).
      + intros t. apply (is_derive_opp (K := R_AbsRing) (V := R_NormedModule) g). apply Dg.
      + intros t Ht. pose proof (F1 t ltac:(lra)) as Q. apply Rabs_le_between in Q. rewrite (Rabs_left1 (t - x)) in Q by lra. lra.
  Qed.
  Lemma scan_max : exists x0, -1 <= x0 <= 1 /\ (forall x, -1 <= x <= 1 -> f x <= f x0) /\ f x0 <= M + C / 8000000.
  Proof.
    assert (C0 : 0 <= C) by (pose proof (B2 0 ltac:(lra)); pose proof (Rabs_pos (f2 0)); lra).
    destruct (continuity_ab_maj f (-1) 1 ltac:(lra)) as (x0 & Mx & Hx0). { intros c _. apply continuity_pt_filterlim. eapply cont_of_derive, D1. }
    exists x0. split; [exact Hx0|]. split; [exact Mx|].
    destruct (Req_dec x0 (-1)) as [->|N1]. { pose proof (Sc 0 ltac:(lia)) as S0. cbn [INR] in S0. replace (-1 + 0 / 1000) with (-1) in S0 by field. lra. }
    destruct (Req_dec x0 1) as [->|N2]. { pose proof (Sc 2000 ltac:(lia)) as S0. rewrite INR_IZR_INZ in S0. replace (-1 + IZR (Z.of_nat 2000) / 1000) with 1 in S0 by (replace (Z.of_nat 2000) with 2000%Z by reflexivity; field). lra. }
    assert (Z : f1 x0 = 0). { assert (pr : derivable_pt f x0) by (exists (f1 x0); apply is_derive_Reals, D1). rewrite <- (is_derive_unique f x0 (f1 x0) (D1 x0)). rewrite <- (Derive_Reals f x0 pr). apply (deriv_maximum f (-1) 1 x0 pr); try lra. intros; apply Mx; lra. }
    destruct (nearest x0 Hx0) as (k & Hk & N). pose proof (Sc k Hk) as S1. set (y := -1 + INR k / 1000) in *. assert (Hy : -1 <= y <= 1). { unfold y. pose proof (pos_INR k). apply le_INR in Hk. rewrite (INR_IZR_INZ 2000) in Hk. replace (Z.of_nat 2000) with 2000%Z in Hk by reflexivity. lra. }
    pose proof (taylor x0 y Hx0 Hy Z) as T. assert ((y - x0) * (y - x0) <= / 4000000). { apply Rabs_le_between in N. nra. } nra.
  Qed.
End Scan.
Lemma leg_max_bound a d : make_leg a = Ok d -> (forall mu, -1 <= mu <= 1 -> 0 <= series 0 (1 :: a) mu) -> curvature 0 (1 :: a) <= 3996 -> 0 < lg_max d /\ forall mu, -1 <= mu <= 1 -> series 0 (1 :: a) mu <= lg_max d.
Proof.
  intros Mk Pos Cv. pose proof (make_leg_pdf a d Mk) as Pd.
  assert (EM : lg_max d = 1001 / 1000 * @max_scan R NumR steps (lg_a d) (-1) (leg_pdf (lg_a d) (-1))).
  { unfold make_leg in Mk. match type of Mk with context [if ?b then _ else _] => destruct b end; [|discriminate]. injection Mk as <-. reflexivity. }
  set (M := max_scan _ _ _ _) in EM. destruct (max_scan_spec steps (lg_a d) (-1) (leg_pdf (lg_a d) (-1))) as [M0 M1]. fold M in M0, M1.
  assert (Sc : forall k, (k <= 2000)%nat -> series 0 (1 :: a) (-1 + INR k / 1000) <= M).
  { intros k Hk. rewrite <- Pd. destruct k as [|k]; [cbn [INR]; replace (-1 + 0 / 1000) with (-1) by field; exact M0|]. apply M1. pose proof steps_Z. lia. }
  destruct (scan_max (series 0 (1 :: a)) (series1 0 (1 :: a)) (series2 0 (1 :: a)) M 3996 (series_d1 _ _) (series_d2 _ _)) as (x0 & Hx & Mx & B); [intros x Hx; eapply Rle_trans; [apply series2_abs; exact Hx|exact Cv]|exact Sc|].
  (* the average is 1/2 *)
  assert (Av : 1 / 2 <= series 0 (1 :: a) x0).
  { pose proof (series_normalised a) as I. pose proof (iR_const (-1) 1 (series 0 (1 :: a) x0)) as J. assert (1 <= (1 - -1) * series 0 (1 :: a) x0); [|lra]. apply (is_RInt_le (series 0 (1 :: a)) (fun _ => series 0 (1 :: a) x0) (-1) 1); [lra|exact I|exact J|]. intros x Hx2. apply Mx. lra. }
  rewrite EM. split; [lra|]. intros mu Hmu. specialize (Mx mu Hmu). lra.
Qed.
Lemma curvature_six a : (length a <= 6)%nat -> (forall c, In c a -> Rabs c <= 1) -> curvature 0 (1 :: a) <= 3996.
Proof.
  intros L H. destruct a as [|a1 [|a2 [|a3 [|a4 [|a5 [|a6 [|]]]]]]]; try (exfalso; cbn [length] in L; lia);
  cbn [curvature INR]; repeat match goal with |- context [Rabs ?c] => lazymatch goal with _ : Rabs c <= 1 |- _ => fail | _ => assert (Rabs c <= 1) by (first [rewrite Rabs_R1; lra|apply H; cbn; tauto]) end; pose proof (Rabs_pos c); generalize dependent (Rabs c); intros end; lra.
Qed.
