(** * The distribution of x/(x+y) for a Maxwell energy x and an independent y with a gamma-like density *)
From Coq Require Import Reals Lra Lia List Arith ZifyBool ZifyNat. From Coquelicot Require Import Coquelicot.
From Verif Require Import Base NumR L_Legendre L_Interp2 L_Spectra L_Spectra2 S_Prob L_Prob L_ProbEv L_Prob2 L_Gauss L_ProbMw L_ProbLaw L_ProbLoop L_ProbSvt L_ProbSvt2 L_ProbSvt4 L_ProbNB L_ProbNB2. Import ListNotations.
Local Open Scope R_scope.
Local Notation iR := (@is_RInt R_NormedModule).

(** ** where a function that vanishes at infinity stays small *)
Definition far (H : R -> R) (eps : R) : R := real (Lub_Rbar (fun w => eps < Rabs (H w - 0))).
Lemma far_ok (H : R -> R) : is_lim H p_infty 0 -> forall eps, 0 < eps -> forall w, far H eps < w -> Rabs (H w - 0) <= eps.
Proof.
  intros L eps He w Hw. apply is_lim_spec in L. destruct (L (mkposreal eps He)) as (M & HM). cbn in HM. unfold far in Hw. destruct (Lub_Rbar_correct (fun w => eps < Rabs (H w - 0))) as [U Lst]. set (l := Lub_Rbar _) in *.
  destruct (Rle_dec (Rabs (H w - 0)) eps) as [Q|Q]; [exact Q|exfalso]. assert (Q' : eps < Rabs (H w - 0)) by lra. specialize (U w Q').
  assert (B : Rbar_le l M). { apply Lst. intros x Hx. cbn in *. destruct (Rle_dec x M) as [|N]; [assumption|]. specialize (HM x ltac:(lra)). lra. }
  destruct l as [l| |]; cbn in *; try tauto. lra.
Qed.
Lemma rint_u (f : R -> R) a b v : iR f a b v -> RInt f a b = v. Proof. apply (@is_RInt_unique R_CompleteNormedModule). Qed.
Lemma rint_c (f : R -> R) a b : ex_RInt f a b -> iR f a b (RInt f a b). Proof. apply (@RInt_correct R_CompleteNormedModule). Qed.
Lemma ex_c (f : R -> R) a b : (forall z, Rmin a b <= z <= Rmax a b -> continuous f z) -> ex_RInt f a b. Proof. apply (@ex_RInt_continuous R_CompleteNormedModule). Qed.
Section Ratio.
  Variables (k : nat) (Y : list R -> R) (b : R -> R) (C Gm : R).
  Definition fY (s : R) : R := C * (b s * exp (- s)).
  Definition FY (s : R) : R := RInt fY 0 s.
  Definition q (v : R) : R := v * (sqrt v * b v).
  Definition GV (V : R) : R := RInt (fun v => q v * exp (- v)) 0 V.
  Hypothesis Yge : forall s, 0 <= s -> prob k (fun l => s <= Y l) (1 - FY s).
  Hypothesis Ylim : is_lim FY p_infty 1.
  Hypothesis bc : forall x, continuous b x.
  Hypothesis bm : forall x y, 0 <= x -> 0 <= y -> b (x * y) = b x * b y.
  Hypothesis bp : forall x, 0 < x -> 0 < b x.
  Hypothesis Cp : 0 < C.
  Hypothesis Glim : is_lim GV p_infty Gm.
  Lemma fY_c x : continuous fY x.
  Proof. unfold fY. apply (c_mult (fun _ => C)); [apply c_const|]. apply (c_mult b); [apply bc|apply edc; auto_derive; exact Logic.I]. Qed.
  Lemma fY_ex x y : ex_RInt fY x y. Proof. apply ex_c. intros z _. apply fY_c. Qed.
  Lemma FY_d x : is_derive FY x (fY x).
  Proof. apply (@is_derive_RInt R_NormedModule fY FY 0 x); [|apply fY_c]. exists (mkposreal 1 Rlt_0_1). intros z _. apply rint_c, fY_ex. Qed.
  Lemma FY_c x : continuous FY x. Proof. apply edc. eexists. apply FY_d. Qed.
  Lemma q_c x : continuous q x.
  Proof. unfold q. apply (c_mult (fun v => v)); [apply c_id|]. apply (c_mult sqrt); [apply continuous_sqrt|apply bc]. Qed.
  Lemma qe_c x : continuous (fun v => q v * exp (- v)) x. Proof. apply (c_mult q); [apply q_c|apply edc; auto_derive; exact Logic.I]. Qed.
  Lemma q_m x y : 0 <= x -> 0 <= y -> q (x * y) = q x * q y.
  Proof. intros Hx Hy. unfold q. rewrite sqrt_mult, bm by assumption. ring. Qed.
  Lemma q_p x : 0 < x -> 0 < q x.
  Proof. intros H. unfold q. pose proof (sqrt_lt_R0 x H). pose proof (bp x H). apply Rmult_lt_0_compat; [exact H|]. apply Rmult_lt_0_compat; assumption. Qed.
  Lemma b_nn x : 0 <= x -> 0 <= b x.
  Proof. intros H. rewrite <- (sqrt_sqrt x H). rewrite bm by apply sqrt_pos. apply Rle_0_sqr. Qed.
  Lemma q_nn x : 0 <= x -> 0 <= q x.
  Proof. intros H. unfold q. pose proof (sqrt_pos x). pose proof (b_nn x H). apply Rmult_le_pos; [exact H|]. apply Rmult_le_pos; assumption. Qed.
  Lemma GV_int V : iR (fun v => q v * exp (- v)) 0 V (GV V). Proof. apply rint_c, ex_c. intros z _. apply qe_c. Qed.
  Lemma GV_mono u v : 0 <= u -> u <= v -> GV u <= GV v.
  Proof.
    intros Hu Huv. assert (I : iR (fun v => q v * exp (- v)) u v (RInt (fun v => q v * exp (- v)) u v)) by (apply rint_c, ex_c; intros z _; apply qe_c). pose proof (iR_chasles _ 0 u v _ _ (GV_int u) I) as K. unfold GV at 2. rewrite (rint_u _ _ _ _ K).
    assert (0 <= RInt (fun v => q v * exp (- v)) u v); [|lra]. apply RInt_ge_0; [exact Huv|eexists; exact I|]. intros x Hx. apply Rmult_le_pos; [apply q_nn; lra|left; apply exp_pos].
  Qed.
  Lemma GV_0 : GV 0 = 0. Proof. exact (@RInt_point R_CompleteNormedModule 0 _). Qed.
  Lemma GV_le V : 0 <= V -> GV V <= Gm.
  Proof.
    intros HV. apply (is_lim_le_loc (fun _ => GV V) GV p_infty (GV V) Gm); [|apply is_lim_const|exact Glim]. exists V. intros y Hy. apply GV_mono; lra.
  Qed.
  Definition DD : R := C * (2 / sqrt PI).
  Lemma DD_p : 0 < DD. Proof. pose proof sqrtpi. unfold DD. apply Rmult_lt_0_compat; [exact Cp|apply Rdiv_lt_0_compat; lra]. Qed.
  Definition kk (rho : R) : R := DD * b rho / ((1 + rho) * q (1 + rho)).
  Lemma kk_c x : 0 <= x -> continuous kk x.
  Proof.
    intros Hx. unfold kk. pose proof (q_p (1 + x) ltac:(lra)) as Q. assert (N : (1 + x) * q (1 + x) <> 0) by (apply Rgt_not_eq; apply Rmult_lt_0_compat; lra).
    apply (c_mult (fun rho => DD * b rho) (fun rho => / ((1 + rho) * q (1 + rho)))); [apply (c_mult (fun _ => DD)); [apply c_const|apply bc]|].
    apply (c_comp Rinv (fun rho => (1 + rho) * q (1 + rho))).
    - apply (c_mult (fun rho => 1 + rho)); [apply edc; auto_derive; exact Logic.I|]. apply (c_comp q (fun rho => 1 + rho)); [apply edc; auto_derive; exact Logic.I|apply q_c].
    - apply edc. auto_derive. exact N.
  Qed.
  Lemma kk_nn x : 0 <= x -> 0 <= kk x.
  Proof. intros Hx. unfold kk. pose proof (q_p (1 + x) ltac:(lra)). pose proof (b_nn x Hx). pose proof DD_p. apply Rle_mult_inv_pos; [nra|]. apply Rmult_lt_0_compat; lra. Qed.
  (** the integrand *)
  Definition hh (w rho : R) : R := w * fY (w * rho) * mx_dens w.
  Lemma hh_c x y : continuity_2d_pt hh x y.
  Proof.
    unfold hh. apply (continuity_2d_pt_mult (fun w rho => w * fY (w * rho)) (fun w _ => mx_dens w)); [apply (continuity_2d_pt_mult (fun w _ => w) (fun w rho => fY (w * rho)))|].
    - apply continuity_2d_pt_id1.
    - apply (continuity_1d_2d_pt_comp fY (fun w rho => w * rho)); [apply continuity_pt_filterlim, fY_c|]. apply continuity_2d_pt_mult; [apply continuity_2d_pt_id1|apply continuity_2d_pt_id2].
    - apply (continuity_1d_2d_pt_comp mx_dens (fun w _ => w)); [apply continuity_pt_filterlim, mx_dens_c|apply continuity_2d_pt_id1].
  Qed.
  Lemma hh_rho w r : RInt (hh w) 0 r = FY (w * r) * mx_dens w.
  Proof.
    apply rint_u. assert (I : iR (fun y => w * fY (w * y + 0)) 0 r (FY (w * r))).
    { apply (@is_RInt_comp_lin R_NormedModule fY w 0 0 r). rewrite Rmult_0_r, !Rplus_0_r. apply rint_c, fY_ex. }
    pose proof (@is_RInt_scal R_NormedModule _ 0 r (mx_dens w) _ I) as S. eapply iR_eq; [|eapply (@is_RInt_ext R_NormedModule); [|exact S]].
    - unfold scal. cbn. unfold mult. cbn. ring.
    - intros x _. unfold scal. cbn. unfold mult. cbn. unfold hh. rewrite Rplus_0_r. match goal with |- ?a = ?b => change (@eq R a b) end. ring.
  Qed.
  Lemma hh_w W rho : 0 < W -> 0 <= rho -> iR (fun w => hh w rho) 0 W (kk rho * GV (W * (1 + rho))).
  Proof.
    intros HW Hr. pose proof (q_p (1 + rho) ltac:(lra)) as Q. pose proof sqrtpi as SP.
    assert (I : iR (fun y => (1 + rho) * (q ((1 + rho) * y + 0) * exp (- ((1 + rho) * y + 0)))) 0 W (GV (W * (1 + rho)))).
    { apply (@is_RInt_comp_lin R_NormedModule (fun v => q v * exp (- v)) (1 + rho) 0 0 W). rewrite Rmult_0_r, !Rplus_0_r. rewrite (Rmult_comm (1 + rho) W). apply GV_int. }
    pose proof (@is_RInt_scal R_NormedModule _ 0 W (kk rho) _ I) as S. apply (iR_ext _ _ 0 W _ ltac:(lra)) with (2 := S). intros y Hy. unfold scal. cbn. unfold mult. cbn. rewrite Rplus_0_r, q_m by lra. unfold hh, fY, mx_dens, kk.
    rewrite bm by lra. replace (exp (- ((1 + rho) * y))) with (exp (- (y * rho)) * exp (- y)) by (rewrite <- exp_plus; f_equal; ring). unfold DD. unfold q at 3. match goal with |- ?a = ?b => change (@eq R a b) end. field. split; [lra|]. split; lra.
  Qed.
  Definition HY (r w : R) : R := 1 - FY (w * r).
  Lemma HY_c r x : continuity_pt (HY r) x.
  Proof.
    apply continuity_pt_filterlim. apply (c_minus (fun _ => 1) (fun w => FY (w * r))); [apply c_const|]. apply (c_comp FY (fun w => w * r)); [apply edc; auto_derive; exact Logic.I|apply FY_c].
  Qed.
  Lemma HY_lim r : 0 < r -> is_lim (HY r) p_infty 0.
  Proof.
    intros Hr. unfold HY. replace (Finite 0) with (Finite (1 - 1)) by (f_equal; ring). apply is_lim_minus'; [apply is_lim_const|]. apply (is_lim_comp FY (fun w => w * r) p_infty 1 p_infty); [exact Ylim| |exists 0; intros; discriminate].
    apply (is_lim_ext (fun w => r * w)); [intros; ring|]. replace p_infty with (Rbar_mult r p_infty) at 2. apply is_lim_scal_l, is_lim_id. cbn. destruct (Rle_dec 0 r) as [A|A]; [|lra]. destruct (Rle_lt_or_eq_dec 0 r A); [reflexivity|lra].
  Qed.
  Lemma part_eq r W : 0 <= r -> 0 < W -> part mx_dens (HY r) W = MX W - RInt (fun rho => RInt (fun w => hh w rho) 0 W) 0 r.
  Proof.
    intros Hr HW. rewrite <- (fubini hh 0 W 0 r hh_c ltac:(lra) Hr). unfold part. apply rint_u.
    assert (I2 : iR (fun w => FY (w * r) * mx_dens w) 0 W (RInt (fun x => RInt (hh x) 0 r) 0 W)).
    { apply (iR_ext (fun x => RInt (hh x) 0 r)); [lra|intros; apply hh_rho|]. apply rint_c, ex_c. intros z _. apply param_cont; [exact hh_c|exact Hr]. }
    pose proof (@is_RInt_minus R_NormedModule _ _ 0 W _ _ (mx_dens_int W ltac:(lra)) I2) as S. eapply (@is_RInt_ext R_NormedModule); [|exact S]. intros x _. unfold HY, minus, plus, opp. cbn. match goal with |- ?a = ?b => change (@eq R a b) end. ring.
  Qed.
  Lemma kk_ex r : 0 <= r -> ex_RInt kk 0 r.
  Proof. intros Hr. apply ex_c. rewrite Rmin_left, Rmax_right by lra. intros z Hz. apply kk_c. lra. Qed.
  Lemma inner_bounds r W : 0 <= r -> 0 < W -> GV W * RInt kk 0 r <= RInt (fun rho => RInt (fun w => hh w rho) 0 W) 0 r <= Gm * RInt kk 0 r.
  Proof.
    intros Hr HW. assert (X : ex_RInt (fun rho => RInt (fun w => hh w rho) 0 W) 0 r).
    { apply ex_c. intros z _. apply (param_cont (fun rho w => hh w rho)); [|lra]. intros u v. apply (c2_swap hh v u). apply hh_c. }
    assert (Q : forall a : R, RInt (fun rho => a * kk rho) 0 r = a * RInt kk 0 r) by (intros a; exact (@RInt_scal R_CompleteNormedModule kk 0 r a (kk_ex r Hr))).
    assert (Xa : forall a : R, ex_RInt (fun rho => a * kk rho) 0 r) by (intros a; exact (@ex_RInt_scal R_CompleteNormedModule kk 0 r a (kk_ex r Hr))).
    rewrite <- (Q (GV W)), <- (Q Gm). split.
    - apply RInt_le; [exact Hr|apply Xa|exact X|]. intros x Hx. rewrite (rint_u _ _ _ _ (hh_w W x HW (Rlt_le _ _ (proj1 Hx)))). rewrite Rmult_comm. pose proof (kk_nn x (Rlt_le _ _ (proj1 Hx))). apply Rmult_le_compat_l; [assumption|]. apply GV_mono; nra.
    - apply RInt_le; [exact Hr|exact X|apply Xa|]. intros x Hx. rewrite (rint_u _ _ _ _ (hh_w W x HW (Rlt_le _ _ (proj1 Hx)))). rewrite (Rmult_comm Gm). pose proof (kk_nn x (Rlt_le _ _ (proj1 Hx))). apply Rmult_le_compat_l; [assumption|]. apply GV_le. nra.
  Qed.
  Lemma part_lim r : 0 <= r -> is_lim (part mx_dens (HY r)) p_infty (1 - Gm * RInt kk 0 r).
  Proof.
    intros Hr. apply (is_lim_ext_loc (fun W => MX W - RInt (fun rho => RInt (fun w => hh w rho) 0 W) 0 r)).
    { exists 0. intros W HW. symmetry. apply part_eq; [exact Hr|lra]. }
    apply is_lim_minus'; [exact mx_lim|]. apply (is_lim_le_le_loc (fun W => RInt kk 0 r * GV W) (fun _ => Gm * RInt kk 0 r)).
    - exists 0. intros W HW. rewrite (Rmult_comm (RInt kk 0 r)). apply inner_bounds; [exact Hr|lra].
    - replace (Finite (Gm * RInt kk 0 r)) with (Rbar_mult (RInt kk 0 r) Gm) by (cbn; f_equal; ring). apply is_lim_scal_l. exact Glim.
    - apply is_lim_const.
  Qed.
  Lemma ratio_r r : 0 <= r -> prob (3 + k) (fun l => m3 (firstn 3 l) * r <= Y (skipn 3 l)) (1 - Gm * RInt kk 0 r).
  Proof.
    intros [Hr| <-].
    - destruct (after_all 3 k m3 mx_dens MX (HY r) 0 (far (HY r)) (fun w l => w * r <= Y l) (fun w l => Rle_dec (w * r) (Y l)) m3_pos m3_prob mx_dens_int mx_dens_pos (fun x _ => mx_dens_c x) mx_lim (fun w Hw => Yge (w * r) ltac:(nra)) (fun x _ => HY_c r x) (far_ok (HY r) (HY_lim r Hr))) as (J & PJ & LJ).
      pose proof (part_lim r ltac:(lra)) as L. pose proof (is_lim_unique _ _ _ L) as U1. pose proof (is_lim_unique _ _ _ LJ) as U2. rewrite U1 in U2. injection U2 as U. rewrite U. exact PJ.
    - eapply prob_val; [|pose proof (prob_and 3 k (fun _ => True) _ 1 _ (prob_always 3 _ (fun _ _ => Logic.I)) (Yge 0 ltac:(lra))) as P; eapply prob_ext; [|exact P]].
      + unfold FY. rewrite (@RInt_point R_CompleteNormedModule 0 fY), (@RInt_point R_CompleteNormedModule 0 kk). change (@zero R_CompleteNormedModule) with 0. ring.
      + intros l _. cbv beta. rewrite Rmult_0_r. tauto.
  Qed.
  (** in terms of the share t of x *)
  Definition BB (u : R) : R := DD * Gm * (b (1 - u) * sqrt u).
  Lemma share_int t : 0 < t <= 1 -> iR BB t 1 (Gm * RInt kk 0 ((1 - t) / t)).
  Proof.
    intros Ht. assert (R0 : 0 <= (1 - t) / t) by (apply Rle_mult_inv_pos; lra).
    assert (I : iR (fun u => (- / (u * u)) * kk ((1 - u) / u)) t 1 (RInt kk ((1 - t) / t) ((1 - 1) / 1))).
    { apply (@is_RInt_comp R_CompleteNormedModule kk (fun u => (1 - u) / u) (fun u => - / (u * u)) t 1); rewrite Rmin_left, Rmax_right by lra; intros x Hx.
      - apply kk_c. apply Rle_mult_inv_pos; lra.
      - split; [auto_derive; [lra|field; lra]|]. apply edc. auto_derive. nra. }
    replace ((1 - 1) / 1) with 0 in I by field. pose proof (@opp_RInt_swap R_CompleteNormedModule kk 0 ((1 - t) / t) (kk_ex _ R0)) as O. change (- RInt kk 0 ((1 - t) / t) = RInt kk ((1 - t) / t) 0) in O. rewrite <- O in I.
    pose proof (@is_RInt_scal R_NormedModule _ t 1 (- Gm) _ I) as S. eapply iR_eq; [|apply (iR_ext _ _ t 1 _ ltac:(lra)) with (2 := S)].
    - unfold scal. cbn. unfold mult. cbn. ring.
    - intros u Hu. unfold scal. cbn. unfold mult. cbn. unfold BB, kk. assert (Pu : 0 < u) by lra. pose proof (bp u Pu) as Bu. pose proof (sqrt_lt_R0 u Pu) as Su.
      replace (1 + (1 - u) / u) with (/ u) by (field; lra). assert (Iu : 0 < / u) by (apply Rinv_0_lt_compat; exact Pu).
      assert (Qi : q (/ u) * q u = 1). { rewrite <- q_m by lra. rewrite Rinv_l by lra. unfold q. rewrite sqrt_1. pose proof (bm 1 1 ltac:(lra) ltac:(lra)) as B1. rewrite Rmult_1_l in B1. pose proof (bp 1 ltac:(lra)). nra. }
      assert (Bi : b ((1 - u) / u) * b u = b (1 - u)). { rewrite <- bm; [f_equal; field; lra|apply Rle_mult_inv_pos; lra|lra]. }
      pose proof (q_p u Pu) as Qu. assert (Qe : q (/ u) = / q u) by (apply (Rmult_eq_reg_r (q u)); [rewrite Qi; field; lra|lra]). rewrite Qe. rewrite <- Bi. unfold q. match goal with |- ?a = ?b => change (@eq R a b) end. field. lra.
  Qed.
End Ratio.
