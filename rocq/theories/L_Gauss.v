(** * The Gaussian integral, and the integral of exp(-z^2/cos^2) over a quarter turn *)
From Coq Require Import Reals Lra Lia. From Coquelicot Require Import Coquelicot.
From Verif Require Import Base NumR L_Legendre L_Spectra L_Prob L_ProbEv.
Local Open Scope R_scope.
Local Notation iR := (@is_RInt R_NormedModule).
Local Notation cR := (@continuous R_UniformSpace R_UniformSpace).

Definition G (x : R) : R := RInt (fun t => exp (- (t * t))) 0 x.
Lemma sqrtpi : 0 < sqrt PI. Proof. apply sqrt_lt_R0, PI_RGT_0. Qed.
Lemma sqrtpi2 : sqrt PI * sqrt PI = PI. Proof. apply sqrt_sqrt. left. apply PI_RGT_0. Qed.
Lemma erf_G x : Rerf x = 2 / sqrt PI * G x. Proof. reflexivity. Qed.
Lemma G_erf x : G x = sqrt PI / 2 * Rerf x.
Proof. rewrite erf_G. pose proof sqrtpi. generalize (G x). intros q. field. lra. Qed.
Lemma G_int x : iR (fun t => exp (- (t * t))) 0 x (G x).
Proof. apply (@RInt_correct R_CompleteNormedModule). apply (@ex_RInt_continuous R_CompleteNormedModule). intros; apply cont_gauss. Qed.
Lemma G_derive x : is_derive G x (exp (- (x * x))).
Proof. apply (@is_derive_RInt R_NormedModule (fun t => exp (- (t * t))) G 0 x); [|apply cont_gauss]. exists posreal_one. intros y _. apply G_int. Qed.
Lemma G_0 : G 0 = 0. Proof. unfold G. rewrite RInt_point. reflexivity. Qed.
Lemma G_pos x : 0 <= x -> 0 <= G x.
Proof.
  intros H. pose proof (iR_const_on (fun _ => 0) 0 x 0 H ltac:(reflexivity)) as C. assert ((x - 0) * 0 <= G x); [|lra]. apply (is_RInt_le (fun _ => 0) (fun t => exp (- (t * t))) 0 x); [exact H|exact C|apply G_int|]. intros; left; apply exp_pos.
Qed.

(** ** int_0^T exp(-z^2 (1+u^2)) / (1+u^2) du *)
Definition kA (z u : R) : R := exp (- (z * z) * (1 + u * u)) / (1 + u * u).
Definition A (T z : R) : R := RInt (kA z) 0 T.
Lemma den u : 0 < 1 + u * u. Proof. nra. Qed.
Lemma kA_cont z u : cR (kA z) u.
Proof. apply edc. unfold kA. auto_derive. pose proof (den u). lra. Qed.
Lemma A_int T z : iR (kA z) 0 T (A T z).
Proof. apply (@RInt_correct R_CompleteNormedModule). apply (@ex_RInt_continuous R_CompleteNormedModule). intros; apply kA_cont. Qed.
Lemma kA_der z u : is_derive (fun z => kA z u) z (- 2 * z * exp (- (z * z) * (1 + u * u))).
Proof. unfold kA. auto_derive; [trivial|]. pose proof (den u). field. lra. Qed.
Lemma A_derive T z : is_derive (A T) z (- 2 * exp (- (z * z)) * G (T * z)).
Proof.
  assert (D : is_derive (A T) z (RInt (fun u => Derive (fun z => kA z u) z) 0 T)).
  { apply (is_derive_RInt_param kA 0 T z).
    - exists posreal_one. intros y _ t _. eexists. apply kA_der.
    - intros t _. apply continuity_2d_pt_ext with (fun z u => - 2 * z * exp (- (z * z) * (1 + u * u))).
      + intros x y. symmetry. apply is_derive_unique. apply kA_der.
      + apply continuity_2d_pt_mult; [apply continuity_2d_pt_mult; [apply continuity_2d_pt_const|apply continuity_2d_pt_id1]|].
        apply (continuity_1d_2d_pt_comp exp (fun z u => - (z * z) * (1 + u * u))); [apply cont_pt, continuous_exp|].
        apply continuity_2d_pt_mult; [apply continuity_2d_pt_opp, continuity_2d_pt_mult; apply continuity_2d_pt_id1|].
        apply continuity_2d_pt_plus; [apply continuity_2d_pt_const|apply continuity_2d_pt_mult; apply continuity_2d_pt_id2].
    - exists posreal_one. intros y _. exists (A T y). apply A_int. }
  replace (- 2 * exp (- (z * z)) * G (T * z)) with (RInt (fun u => Derive (fun z => kA z u) z) 0 T); [exact D|].
  apply (@is_RInt_unique R_CompleteNormedModule). apply (@is_RInt_ext R_NormedModule (fun u => - 2 * exp (- (z * z)) * (z * exp (- ((z * u + 0) * (z * u + 0)))))).
  - intros u _. match goal with |- ?a = ?b => change (@eq R a b) end. symmetry. etransitivity; [apply is_derive_unique, kA_der|]. replace (- (z * z) * (1 + u * u)) with (- (z * z) + - ((z * u + 0) * (z * u + 0))) by ring. rewrite exp_plus. ring.
  - apply (@is_RInt_scal R_NormedModule (fun u => z * exp (- ((z * u + 0) * (z * u + 0))))). apply (@is_RInt_comp_lin R_NormedModule (fun t => exp (- (t * t))) z 0 0 T). replace (z * 0 + 0) with 0 by ring. replace (z * T + 0) with (T * z) by ring. apply G_int.
Qed.
Lemma A_0 T : A T 0 = atan T.
Proof.
  apply (@is_RInt_unique R_CompleteNormedModule). eapply iR_eq; [|apply (@is_RInt_derive R_CompleteNormedModule atan)].
  - rewrite atan_0. match goal with |- ?a = ?b => change (a = b) end. unfold minus, plus, opp. cbn. ring.
  - intros x _. unfold kA. replace (exp (- (0 * 0) * (1 + x * x)) / (1 + x * x)) with (/ (1 + x²)); [apply is_derive_atan|]. replace (- (0 * 0) * (1 + x * x)) with 0 by ring. rewrite exp_0. unfold Rsqr. pose proof (den x). field. lra.
  - intros; apply kA_cont.
Qed.
Lemma exp_le1 x : 0 <= x -> exp (- x) <= 1. Proof. intros H. rewrite <- exp_0. apply exp_le. lra. Qed.
Lemma A_bounds z : 0 <= A 1 z <= exp (- (z * z)).
Proof.
  pose proof (iR_const_on (fun _ => 0) 0 1 0 ltac:(lra) ltac:(reflexivity)) as C. pose proof (iR_const_on (fun _ => exp (- (z * z))) 0 1 _ ltac:(lra) ltac:(reflexivity)) as C'.
  assert (B : forall u, 0 < u < 1 -> 0 <= kA z u <= exp (- (z * z))).
  { intros u Hu. unfold kA. pose proof (den u). pose proof (exp_pos (- (z * z) * (1 + u * u))). split; [apply Rle_div_r; lra|]. apply Rle_div_l; [lra|]. apply Rle_trans with (exp (- (z * z)) * 1); [|apply Rmult_le_compat_l; [left; apply exp_pos|nra]]. rewrite Rmult_1_r. apply exp_le. assert (0 <= z * z) by nra. assert (0 <= u * u) by nra. nra. }
  split.
  - assert ((1 - 0) * 0 <= A 1 z); [|lra]. apply (is_RInt_le (fun _ => 0) (kA z) 0 1); [lra|exact C|apply A_int|]. intros u Hu. apply B. exact Hu.
  - assert (A 1 z <= (1 - 0) * exp (- (z * z))); [|lra]. apply (is_RInt_le (kA z) (fun _ => exp (- (z * z))) 0 1); [lra|apply A_int|exact C'|]. intros u Hu. apply B. exact Hu.
Qed.
(** a function with derivative zero *)
Lemma const_fun (F : R -> R) x y : (forall t, is_derive F t 0) -> F x = F y.
Proof.
  intros D. destruct (MVT_gen F x y (fun _ => 0)) as (c & _ & H).
  - intros t _. apply D.
  - intros t _. apply cont_pt, edc. eexists. apply D.
  - lra.
Qed.
Lemma G_sq x : G x * G x = PI / 4 - A 1 x.
Proof.
  assert (E : G x * G x + A 1 x = G 0 * G 0 + A 1 0).
  { apply (const_fun (fun x => G x * G x + A 1 x) x 0). intros t. replace 0 with ((exp (- (t * t)) * G t + G t * exp (- (t * t))) + - 2 * exp (- (t * t)) * G (1 * t)) by (rewrite Rmult_1_l; ring).
    apply (@is_derive_plus R_AbsRing R_NormedModule (fun x => G x * G x) (A 1)); [apply (is_derive_mult G G t); [apply G_derive|apply G_derive|intros; apply Rmult_comm]|apply A_derive]. }
  rewrite A_0, G_0, atan_1 in E. lra.
Qed.
Lemma G_limit x : 0 <= x -> 0 <= sqrt PI / 2 - G x <= 2 / sqrt PI * exp (- (x * x)).
Proof.
  intros H. pose proof sqrtpi as P. pose proof sqrtpi2 as P2. pose proof (G_sq x) as Q. pose proof (A_bounds x) as B. pose proof (G_pos x H) as GP. set (s := sqrt PI / 2) in *. assert (S2 : s * s = PI / 4) by (unfold s; replace (sqrt PI / 2 * (sqrt PI / 2)) with (sqrt PI * sqrt PI / 4) by field; rewrite P2; reflexivity). assert (SP : 0 < s) by (unfold s; lra).
  assert (E : (s - G x) * (s + G x) = A 1 x) by (replace ((s - G x) * (s + G x)) with (s * s - G x * G x) by ring; lra). split; [apply Rnot_lt_le; intros C; nra|].
  replace (2 / sqrt PI) with (/ s) by (unfold s; field; lra). apply Rmult_le_reg_l with s; [exact SP|]. replace (s * (/ s * exp (- (x * x)))) with (exp (- (x * x))) by (field; lra). assert (0 <= s - G x) by (apply Rnot_lt_le; intros C; nra). nra.
Qed.
(** A T z = atan T - 2 int_0^z exp(-s^2) G(T s) ds *)
Lemma A_eq T z : iR (fun s => exp (- (s * s)) * G (T * s)) 0 z ((atan T - A T z) / 2).
Proof.
  apply (iR_eq _ _ _ (minus (- / 2 * A T z) (- / 2 * A T 0))); [rewrite A_0; unfold minus, plus, opp; cbn; field|].
  apply (@is_RInt_derive R_CompleteNormedModule (fun z => - / 2 * A T z)).
  - intros x _. replace (exp (- (x * x)) * G (T * x)) with (- / 2 * (- 2 * exp (- (x * x)) * G (T * x))) by field. apply (dR_scal (A T)). apply A_derive.
  - intros x _. apply edc. exists (- 2 * x * exp (- (x * x)) * G (T * x) + exp (- (x * x)) * (T * exp (- (T * x * (T * x))))). apply (is_derive_mult (fun s => exp (- (s * s))) (fun s => G (T * s)) x); [auto_derive; [trivial|ring]| |intros; apply Rmult_comm].
    apply (@is_derive_comp R_AbsRing R_NormedModule G (fun s => T * s) x (exp (- (T * x * (T * x)))) T); [apply G_derive|]. auto_derive; [trivial|ring].
Qed.
Lemma A_near T z : 0 < T -> 0 <= z -> 0 <= A T z - (atan T - sqrt PI * G z) <= 2 / T.
Proof.
  intros PT Pz. pose proof sqrtpi as P. pose proof (A_eq T z) as E.
  assert (E2 : iR (fun s => sqrt PI / 2 * exp (- (s * s))) 0 z (sqrt PI / 2 * G z)) by (apply (@is_RInt_scal R_NormedModule (fun t => exp (- (t * t)))), G_int).
  pose proof (@is_RInt_minus R_NormedModule _ _ _ _ _ _ E2 E) as M.
  assert (E3 : iR (fun s => 2 / sqrt PI * (/ T * (T * exp (- ((T * s + 0) * (T * s + 0)))))) 0 z (2 / sqrt PI * (/ T * G (T * z)))).
  { apply (@is_RInt_scal R_NormedModule (fun s => / T * (T * exp (- ((T * s + 0) * (T * s + 0)))))), (@is_RInt_scal R_NormedModule (fun s => T * exp (- ((T * s + 0) * (T * s + 0))))). apply (@is_RInt_comp_lin R_NormedModule (fun t => exp (- (t * t))) T 0 0 z). replace (T * 0 + 0) with 0 by ring. replace (T * z + 0) with (T * z) by ring. apply G_int. }
  set (m := sqrt PI / 2 * G z - (atan T - A T z) / 2). change (minus (sqrt PI / 2 * G z) ((atan T - A T z) / 2)) with m in M.
  assert (B : forall s, 0 < s < z -> 0 <= sqrt PI / 2 * exp (- (s * s)) - exp (- (s * s)) * G (T * s) <= 2 / sqrt PI * (/ T * (T * exp (- ((T * s + 0) * (T * s + 0)))))).
  { intros s Hs. pose proof (G_limit (T * s) ltac:(nra)) as L. replace (/ T * (T * exp (- ((T * s + 0) * (T * s + 0))))) with (exp (- (T * s * (T * s)))) by (replace ((T * s + 0) * (T * s + 0)) with (T * s * (T * s)) by ring; field; lra).
    replace (sqrt PI / 2 * exp (- (s * s)) - exp (- (s * s)) * G (T * s)) with (exp (- (s * s)) * (sqrt PI / 2 - G (T * s))) by ring. pose proof (exp_pos (- (s * s))). pose proof (exp_le1 (s * s) ltac:(nra)). split; [nra|]. apply Rle_trans with (1 * (sqrt PI / 2 - G (T * s))); [apply Rmult_le_compat_r; lra|lra]. }
  pose proof (iR_const_on (fun _ => 0) 0 z 0 Pz ltac:(reflexivity)) as C.
  assert (M1 : (z - 0) * 0 <= m) by (apply (is_RInt_le (fun _ => 0) (fun s => sqrt PI / 2 * exp (- (s * s)) - exp (- (s * s)) * G (T * s)) 0 z); [exact Pz|exact C|exact M|intros s Hs; apply B; exact Hs]).
  assert (M2 : m <= 2 / sqrt PI * (/ T * G (T * z))) by (apply (is_RInt_le (fun s => sqrt PI / 2 * exp (- (s * s)) - exp (- (s * s)) * G (T * s)) (fun s => 2 / sqrt PI * (/ T * (T * exp (- ((T * s + 0) * (T * s + 0)))))) 0 z); [exact Pz|exact M|exact E3|intros s Hs; apply B; exact Hs]).
  pose proof (G_limit (T * z) ltac:(nra)) as L. assert (M3 : 2 / sqrt PI * (/ T * G (T * z)) <= / T).
  { replace (/ T) with (2 / sqrt PI * (/ T * (sqrt PI / 2))) at 2 by (field; lra). apply Rmult_le_compat_l; [left; apply Rdiv_lt_0_compat; lra|]. apply Rmult_le_compat_l; [left; apply Rinv_0_lt_compat; exact PT|]. lra. }
  assert (EM : A T z - (atan T - sqrt PI * G z) = 2 * m) by (unfold m; field). rewrite EM. unfold Rdiv. lra.
Qed.

(** ** the quarter turn *)
Definition qt (tau x : R) : R := exp (- (tau / (cos (PI * x / 2) * cos (PI * x / 2)))).
Lemma atan_small x : 0 <= x -> 0 <= atan x <= x.
Proof.
  intros [H| <-]; [|rewrite atan_0; lra]. destruct (MVT_gen atan 0 x (fun x => / (1 + x²))) as (c & Hc & E).
  - intros y _. apply is_derive_atan.
  - intros y _. apply cont_pt, edc. eexists. apply is_derive_atan.
  - rewrite atan_0 in E. rewrite Rmin_left, Rmax_right in Hc by lra. unfold Rsqr in E. pose proof (den c) as D. assert (I1 : 0 < / (1 + c * c) <= 1) by (split; [apply Rinv_0_lt_compat; lra|rewrite <- Rinv_1; apply Rinv_le_contravar; nra]). nra.
Qed.
Lemma cos_q x : 0 <= x < 1 -> 0 < cos (PI * x / 2).
Proof. intros H. pose proof PI_RGT_0. apply cos_gt_0; nra. Qed.
Lemma qt_cont tau x : 0 <= x < 1 -> cR (qt tau) x.
Proof. intros H. apply edc. unfold qt. pose proof (cos_q x H). auto_derive. apply Rgt_not_eq. apply Rmult_lt_0_compat; assumption. Qed.
(** up to X = 2/pi atan T *)
Lemma qt_part T z : 0 < T -> iR (qt (z * z)) 0 (2 / PI * atan T) (2 / PI * A T z).
Proof.
  intros PT. pose proof PI_RGT_0 as PP. pose (g := fun u => 2 / PI * atan u).
  assert (R1 : forall u, 0 <= u -> 0 <= g u < 1). { intros u Hu. pose proof (atan_bound u). pose proof (atan_small u Hu). unfold g. split; [apply Rmult_le_pos; [left; apply Rdiv_lt_0_compat; lra|lra]|]. apply Rmult_lt_reg_l with (PI / 2); [lra|]. replace (PI / 2 * (2 / PI * atan u)) with (atan u) by (field; lra). lra. }
  assert (C : iR (fun u => 2 / PI * / (1 + u²) * qt (z * z) (g u)) 0 T (RInt (qt (z * z)) (g 0) (g T))).
  { apply (@is_RInt_comp R_CompleteNormedModule (qt (z * z)) g (fun u => 2 / PI * / (1 + u²))).
    - intros u Hu. rewrite Rmin_left, Rmax_right in Hu by lra. apply qt_cont. apply R1. lra.
    - intros u _. split; [apply (dR_scal atan), is_derive_atan|]. apply edc. unfold Rsqr. auto_derive. pose proof (den u). lra. }
  assert (Q : iR (kA z) 0 T (PI / 2 * RInt (qt (z * z)) (g 0) (g T))).
  { apply (@is_RInt_ext R_NormedModule (fun u => PI / 2 * (2 / PI * / (1 + u²) * qt (z * z) (g u)))); [|apply (@is_RInt_scal R_NormedModule (fun u => 2 / PI * / (1 + u²) * qt (z * z) (g u))); exact C].
    intros u _. match goal with |- ?a = ?b => change (@eq R a b) end. unfold qt, kA, g. replace (PI * (2 / PI * atan u) / 2) with (atan u) by (field; lra). rewrite cos_atan. unfold Rsqr. pose proof (den u) as D. pose proof (sqrt_lt_R0 _ D) as SD. pose proof (sqrt_sqrt (1 + u * u) ltac:(lra)) as SS.
    replace (1 / sqrt (1 + u * u) * (1 / sqrt (1 + u * u))) with (/ (1 + u * u)) by (revert SS SD; generalize (sqrt (1 + u * u)); intros r SS SD; rewrite <- SS; field; lra). replace (z * z / / (1 + u * u)) with (z * z * (1 + u * u)) by (field; lra). replace (- (z * z) * (1 + u * u)) with (- (z * z * (1 + u * u))) by ring. field. lra. }
  assert (E : A T z = PI / 2 * RInt (qt (z * z)) (g 0) (g T)) by (apply (@is_RInt_unique R_CompleteNormedModule); exact Q).
  assert (G0 : g 0 = 0) by (unfold g; rewrite atan_0; ring). rewrite G0 in E. rewrite E. apply (iR_eq _ _ _ (RInt (qt (z * z)) 0 (g T))); [generalize (RInt (qt (z * z)) 0 (g T) : R); intros q; change (q = 2 / PI * (PI / 2 * q)); field; lra|].
  apply (@RInt_correct R_CompleteNormedModule). apply (@ex_RInt_continuous R_CompleteNormedModule). intros x Hx. pose proof (R1 T ltac:(lra)) as RT. rewrite Rmin_left, Rmax_right in Hx by lra. apply qt_cont. lra.
Qed.
Lemma qt_bounds tau x : 0 <= tau -> 0 <= qt tau x <= 1.
Proof.
  intros H. unfold qt. split; [left; apply exp_pos|]. apply exp_le1. set (c := cos (PI * x / 2)). destruct (Req_dec c 0) as [->|C]; [unfold Rdiv; rewrite Rmult_0_l, Rinv_0; lra|]. apply Rle_div_r; [nra|lra].
Qed.
Lemma exp_inv y : 0 < y -> exp (- y) <= / y.
Proof. intros H. rewrite exp_Ropp. apply Rinv_le_contravar; [exact H|]. pose proof (exp_ineq1 y ltac:(lra)). lra. Qed.
Lemma qt_ex tau : 0 < tau -> ex_RInt (qt tau) 0 1.
Proof.
  intros H. pose (k := fun x => if Rlt_dec x 1 then qt tau x else 0). apply (@ex_RInt_ext R_NormedModule k).
  { rewrite Rmin_left, Rmax_right by lra. intros x Hx. unfold k. destruct (Rlt_dec x 1); [reflexivity|lra]. }
  apply (@ex_RInt_continuous R_CompleteNormedModule). rewrite Rmin_left, Rmax_right by lra. intros x [H0 [H1| ->]].
  - apply (continuous_ext_loc _ (qt tau)); [|apply qt_cont; lra]. exists (mkposreal (1 - x) ltac:(lra)). intros y Hy. change (Rabs (y - x) < 1 - x) in Hy. apply Rabs_lt_between in Hy. unfold k. destruct (Rlt_dec y 1); [reflexivity|lra].
  - pose (b := fun x => / tau * (cos (PI * x / 2) * cos (PI * x / 2))). assert (Cb : cR b 1) by (apply edc; unfold b; auto_derive; trivial).
    assert (B1 : b 1 = 0) by (unfold b; replace (PI * 1 / 2) with (PI / 2) by field; rewrite cos_PI2; ring).
    intros P [eps HP]. rewrite B1 in Cb || idtac. assert (Cb' : filterlim b (locally 1) (locally 0)) by (rewrite <- B1; exact Cb).
    destruct (Cb' (ball 0 eps)) as [d Hd]; [exists eps; intros y Hy; exact Hy|]. exists (mkposreal (Rmin d 1) (Rmin_stable_in_posreal d posreal_one)). intros y Hy. apply HP. unfold k. destruct (Rlt_dec 1 1); [lra|].
    change (Rabs (y - 1) < Rmin d 1) in Hy. assert (Hy1 : Rabs (y - 1) < d) by (apply Rlt_le_trans with (1 := Hy); apply Rmin_l). assert (Hy2 : Rabs (y - 1) < 1) by (apply Rlt_le_trans with (1 := Hy); apply Rmin_r). specialize (Hd y Hy1). change (Rabs (b y - 0) < eps) in Hd. change (Rabs ((if Rlt_dec y 1 then qt tau y else 0) - 0) < eps). rewrite Rminus_0_r in *.
    destruct (Rlt_dec y 1) as [L|]; [|rewrite Rabs_R0; apply cond_pos]. apply Rabs_lt_between in Hy2. pose proof (cos_q y ltac:(lra)) as CP. pose proof (qt_bounds tau y ltac:(lra)) as QB. rewrite Rabs_pos_eq by lra. apply Rle_lt_trans with (Rabs (b y)); [|exact Hd]. rewrite Rabs_pos_eq; [|unfold b; apply Rmult_le_pos; [left; apply Rinv_0_lt_compat; lra|nra]].
    unfold qt, b. set (c := cos (PI * y / 2)) in *. apply Rle_trans with (/ (tau / (c * c))); [apply exp_inv; apply Rdiv_lt_0_compat; nra|]. right. field. lra.
Qed.
Lemma small_eq x y c : 0 <= c -> (forall T, 0 < T -> Rabs (x - y) <= c / T) -> x = y.
Proof.
  intros C H. destruct (Req_dec x y) as [|N]; [assumption|exfalso]. assert (P : 0 < Rabs (x - y)) by (apply Rabs_pos_lt; lra). set (d := Rabs (x - y)) in *. specialize (H (2 * (c + 1) / d) ltac:(apply Rdiv_lt_0_compat; lra)). replace (c / (2 * (c + 1) / d)) with (d * (c / (2 * (c + 1)))) in H by (field; lra). assert (c / (2 * (c + 1)) < 1) by (apply Rlt_div_l; lra). nra.
Qed.
(** Craig's formula *)
Lemma qt_int z : 0 < z -> iR (qt (z * z)) 0 1 (1 - Rerf z).
Proof.
  intros Pz. destruct (qt_ex (z * z) ltac:(nra)) as (J & HJ). replace (1 - Rerf z) with J; [exact HJ|]. pose proof PI_RGT_0 as PP. pose proof sqrtpi as SP. pose proof sqrtpi2 as S2. change (iR (qt (z * z)) 0 1 J) in HJ.
  apply (small_eq J (1 - Rerf z) (8 / PI)); [left; apply Rdiv_lt_0_compat; lra|]. intros T PT. pose proof (qt_part T z PT) as Q. set (X := 2 / PI * atan T) in *.
  assert (XB : 1 - 2 / PI * / T <= X <= 1). { pose proof (atan_bound T). pose proof (atan_inv T PT) as E. pose proof (atan_small (/ T) ltac:(left; apply Rinv_0_lt_compat; lra)) as S. assert (EX : 1 - X = 2 / PI * atan (/ T)) by (unfold X; rewrite E; field; lra). assert (0 < 2 / PI) by (apply Rdiv_lt_0_compat; lra). nra. }
  assert (X0 : 0 <= X) by (unfold X; apply Rmult_le_pos; [left; apply Rdiv_lt_0_compat; lra|apply (atan_small T); lra]).
  destruct (@ex_RInt_Chasles_2 R_CompleteNormedModule (qt (z * z)) 0 X 1) as (K & HK); [lra|exists J; exact HJ|]. change (iR (qt (z * z)) X 1 K) in HK. pose proof (iR_chasles _ _ _ _ _ _ Q HK) as HJ'. assert (EJ : J = 2 / PI * A T z + K) by (rewrite <- (is_RInt_unique _ _ _ _ HJ); apply (@is_RInt_unique R_CompleteNormedModule); exact HJ').
  pose proof (iR_const_on (fun _ => 0) X 1 0 ltac:(lra) ltac:(reflexivity)) as C0. pose proof (iR_const_on (fun _ => 1) X 1 1 ltac:(lra) ltac:(reflexivity)) as C1.
  assert (K0 : (1 - X) * 0 <= K) by (apply (is_RInt_le (fun _ => 0) (qt (z * z)) X 1); [lra|exact C0|exact HK|intros x Hx; apply qt_bounds; nra]).
  assert (K1 : K <= (1 - X) * 1) by (apply (is_RInt_le (qt (z * z)) (fun _ => 1) X 1); [lra|exact HK|exact C1|intros x Hx; apply qt_bounds; nra]).
  pose proof (A_near T z PT ltac:(lra)) as AN. assert (E2 : 2 / PI * sqrt PI = 2 / sqrt PI) by (apply Rmult_eq_reg_r with (sqrt PI); [|lra]; rewrite Rmult_assoc, S2; field; lra). assert (EE : 2 / PI * (atan T - sqrt PI * G z) = X - Rerf z) by (unfold X; rewrite erf_G, <- E2; ring).
  assert (P2 : 0 < 2 / PI) by (apply Rdiv_lt_0_compat; lra). assert (B1 : 0 <= 2 / PI * A T z - (X - Rerf z) <= 2 / PI * (2 / T)) by (rewrite <- EE; rewrite <- Rmult_minus_distr_l; split; [apply Rmult_le_pos; lra|apply Rmult_le_compat_l; lra]).
  assert (IT : 0 < / T) by (apply Rinv_0_lt_compat; lra). replace (2 / PI * (2 / T)) with (4 / PI * / T) in B1 by (field; lra). replace (8 / PI / T) with (4 * (2 / PI * / T)) by (field; lra). replace (4 / PI * / T) with (2 * (2 / PI * / T)) in B1 by (field; lra). assert (0 < 2 / PI * / T) by (apply Rmult_lt_0_compat; assumption). apply Rabs_le_between. lra.
Qed.
