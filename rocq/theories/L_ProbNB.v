(** * Tools for N-body phase space: events up to a point of the last number, and the order of two integrals *)
From Coq Require Import Reals Lra Lia List Arith ZifyBool ZifyNat. From Coquelicot Require Import Coquelicot.
From Verif Require Import Base NumR L_Legendre L_Interp2 L_Spectra L_Spectra2 S_Prob L_Prob L_ProbEv L_Prob2 L_Gauss L_ProbMw L_ProbLaw L_ProbLoop L_ProbSvt L_ProbSvt2. Import ListNotations.
Local Open Scope R_scope.
Local Notation iR := (@is_RInt R_NormedModule).

(** ** one point of the last number does not matter *)
Lemma iR_point (f g : R -> R) (x0 v : R) : (forall x, 0 < x < 1 -> x <> x0 -> f x = g x) -> iR f 0 1 v -> iR g 0 1 v.
Proof.
  intros E I. assert (K : (0 < x0 < 1) \/ ~ (0 < x0 < 1)) by (destruct (Rlt_dec 0 x0), (Rlt_dec x0 1); tauto). destruct K as [K|K].
  - assert (X1 : ex_RInt f 0 x0) by (apply (@ex_RInt_Chasles_1 R_CompleteNormedModule _ _ _ 1); [lra|eexists; exact I]). assert (X2 : ex_RInt f x0 1) by (apply (@ex_RInt_Chasles_2 R_CompleteNormedModule _ 0 _ 1); [lra|eexists; exact I]).
    destruct X1 as (v1 & I1), X2 as (v2 & I2). pose proof (iR_chasles f 0 x0 1 v1 v2 I1 I2) as C. assert (v = v1 + v2) as ->.
    { pose proof (@is_RInt_unique R_CompleteNormedModule _ _ _ _ I) as U. pose proof (@is_RInt_unique R_CompleteNormedModule _ _ _ _ C) as V. congruence. }
    apply (iR_chasles g 0 x0 1); [apply (iR_ext f)|apply (iR_ext f)]; try assumption; try lra; intros x Hx; apply E; lra.
  - apply (iR_ext f); [lra| |exact I]. intros x Hx. apply E; [exact Hx|]. intros ->. tauto.
Qed.
Lemma expect_point n : forall f g v, expect (S n) f v -> (forall l, unit_draws n l -> exists x0, forall x, 0 < x < 1 -> x <> x0 -> f (l ++ [x]) = g (l ++ [x])) -> expect (S n) g v.
Proof.
  induction n as [|n IH]; intros f g v (h & H & I) E.
  - exists (fun x => g [x]). split; [intros x _; reflexivity|]. destruct (E [] ltac:(split; [reflexivity|constructor])) as (x0 & E0). apply (iR_point h _ x0); [|exact I]. intros x Hx N. rewrite (H x Hx). apply E0; assumption.
  - exists h. split; [|exact I]. intros x Hx. apply (IH (fun l => f (x :: l))); [apply H; exact Hx|]. intros l Hl. apply (E (x :: l)). apply ud_cons. tauto.
Qed.
(** the complementary event *)
Lemma ge_prob n (phi : list R -> R) s F : prob (S n) (fun l => phi l <= s) F -> (forall l, unit_draws n l -> exists x0, forall x, 0 < x < 1 -> phi (l ++ [x]) = s -> x = x0) -> prob (S n) (fun l => s <= phi l) (1 - F).
Proof.
  intros (f & Hf & E) U. exists (fun l => if Rle_dec s (phi l) then 1 else 0). split; [intros l _; destruct (Rle_dec s (phi l)); [left|right]; tauto|].
  pose proof (expect_lin (S n) _ _ 1 (-1) _ _ (expect_const (S n) 1) E) as Q. replace (1 - F) with (1 * 1 + -1 * F) by ring. apply (expect_point n _ _ _ Q). intros l Hl. destruct (U l Hl) as (x0 & H). exists x0. intros x Hx N. cbv beta.
  assert (Hlx : unit_draws (S n) (l ++ [x])). { destruct Hl as [L O]. split; [rewrite app_length; cbn; lia|]. apply Forall_app. split; [exact O|]. constructor; [exact Hx|constructor]. }
  destruct (Rle_dec s (phi (l ++ [x]))) as [S1|S1], (Hf _ Hlx) as [[A ->]|[A ->]]; try ring; exfalso; [|lra]. apply N. apply (H x Hx). lra.
Qed.
(** ** the order of integration of a continuous function *)
Lemma c2_1 (g : R -> R -> R) x y : continuity_2d_pt g x y -> continuous (fun x => g x y) x.
Proof. intros C. apply continuity_pt_filterlim. intros eps He. destruct (C (mkposreal eps He)) as (dl & Hd). exists dl. split; [apply cond_pos|]. intros z [_ Hz]. apply Hd; [exact Hz|rewrite Rminus_eq_0, Rabs_R0; apply cond_pos]. Qed.
Lemma c2_2 (g : R -> R -> R) x y : continuity_2d_pt g x y -> continuous (g x) y.
Proof. intros C. apply continuity_pt_filterlim. intros eps He. destruct (C (mkposreal eps He)) as (dl & Hd). exists dl. split; [apply cond_pos|]. intros z [_ Hz]. apply Hd; [rewrite Rminus_eq_0, Rabs_R0; apply cond_pos|exact Hz]. Qed.
Lemma param_cont (g : R -> R -> R) u v x : (forall x y, continuity_2d_pt g x y) -> u <= v -> continuous (fun x => RInt (g x) u v) x.
Proof.
  intros C Huv. assert (Ey : forall x, ex_RInt (g x) u v) by (intros z; apply (@ex_RInt_continuous R_CompleteNormedModule); intros t _; apply c2_2, C).
  apply continuity_pt_filterlim. intros eps He. assert (Pe : 0 < eps / (v - u + 1)) by (apply Rdiv_lt_0_compat; lra).
  destruct (uniform_continuity_2d_1d' g u v x (fun y _ => C x y) (mkposreal _ Pe)) as (dl & Hd). exists dl. split; [apply cond_pos|]. intros z [_ Hz].
  change (Rabs (RInt (g z) u v - RInt (g x) u v) < eps). change (Rabs (z - x) < dl) in Hz. apply Rabs_lt_between in Hz.
  pose proof (@RInt_minus R_CompleteNormedModule (g z) (g x) u v (Ey z) (Ey x)) as M. change (RInt (fun y => g z y - g x y) u v = RInt (g z) u v - RInt (g x) u v) in M. rewrite <- M.
  apply Rle_lt_trans with ((v - u) * (eps / (v - u + 1))).
  - apply (abs_RInt_le_const (fun y => g z y - g x y)); [exact Huv|apply (@ex_RInt_minus R_CompleteNormedModule); apply Ey|]. intros t Ht. left. pose proof (cond_pos dl). apply (Hd t x t z); try lra. rewrite Rminus_eq_0, Rabs_R0. apply cond_pos.
  - apply Rlt_le_trans with ((v - u + 1) * (eps / (v - u + 1))); [apply Rmult_lt_compat_r; lra|right; field; lra].
Qed.
Lemma c2_swap (g : R -> R -> R) x y : continuity_2d_pt g x y -> continuity_2d_pt (fun a b => g b a) y x.
Proof. intros C eps. destruct (C eps) as (dl & Hd). exists dl. intros u v Hu Hv. apply Hd; assumption. Qed.
Lemma fubini (g : R -> R -> R) a b c d : (forall x y, continuity_2d_pt g x y) -> a <= b -> c <= d -> RInt (fun x => RInt (g x) c d) a b = RInt (fun y => RInt (fun x => g x y) a b) c d.
Proof.
  intros C Hab Hcd.
  assert (Ey : forall x u v, ex_RInt (g x) u v) by (intros x u v; apply (@ex_RInt_continuous R_CompleteNormedModule); intros z _; apply c2_2, C).
  assert (D1 : forall x y, is_derive (fun y => RInt (g x) c y) y (g x y)).
  { intros x y. apply (@is_derive_RInt R_NormedModule (g x) (fun y => RInt (g x) c y) c y); [|apply c2_2, C]. exists (mkposreal 1 Rlt_0_1). intros z _. apply (@RInt_correct R_CompleteNormedModule). apply Ey. }
  set (P := fun y => RInt (fun x => RInt (g x) c y) a b).
  assert (Dr : forall y x, Derive (fun y => RInt (g x) c y) y = g x y) by (intros y x; apply is_derive_unique, D1).
  assert (Cp : forall z x, continuous (fun x => RInt (g x) c z) x).
  { intros z x. destruct (Rle_dec c z) as [L|L]; [apply param_cont; [exact C|exact L]|]. apply (@continuous_ext R_UniformSpace R_UniformSpace (fun x => - RInt (g x) z c)).
    - intros t. exact (opp_RInt_swap (g t) z c (Ey t z c)).
    - apply (@continuous_opp R_UniformSpace R_AbsRing R_NormedModule). apply param_cont; [exact C|lra]. }
  assert (DP : forall y, is_derive P y (RInt (fun x => g x y) a b)).
  { intros y. pose proof (@is_derive_RInt_param (fun y x => RInt (g x) c y) a b y) as Q. replace (RInt (fun x => g x y) a b) with (RInt (fun t => Derive (fun u => RInt (g t) c u) y) a b); [apply Q|apply RInt_ext; intros x _; apply Dr].
    - exists (mkposreal 1 Rlt_0_1). intros z _ t _. eexists. apply D1.
    - intros t _. apply (continuity_2d_pt_ext (fun u v => g v u)); [intros u v; symmetry; apply Dr|]. apply c2_swap, C.
    - exists (mkposreal 1 Rlt_0_1). intros z _. apply (@ex_RInt_continuous R_CompleteNormedModule). intros t _. apply Cp. }
  assert (I : iR (fun y => RInt (fun x => g x y) a b) c d (P d - P c)).
  { apply (@is_RInt_derive R_CompleteNormedModule P); [intros y _; apply DP|]. intros y _. apply (param_cont (fun y x => g x y)); [|exact Hab]. intros u v. apply (c2_swap g v u). apply C. }
  pose proof (@is_RInt_unique R_CompleteNormedModule _ _ _ _ I) as U. rewrite U. assert (P c = 0) as ->.
  { unfold P. rewrite (RInt_ext _ (fun _ => 0)); [|intros x _; exact (@RInt_point R_CompleteNormedModule c (g x))]. rewrite RInt_const. unfold scal. cbn. unfold mult. cbn. ring. }
  unfold P. symmetry. apply Rminus_0_r.
Qed.
