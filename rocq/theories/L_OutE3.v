(** * KalbachTable, Kalbach *)
From Coquelicot Require Import Coquelicot.
From Verif Require Import Base NumR L_Search L_SearchR M_Interp M_PC S_PC L_PC L_PCR M_OutE S_OutE L_Interp2 L_Legendre L_Angle L_OutE L_OutE2.
From Coq Require Import ZifyBool ZifyNat.
Local Open Scope R_scope.


(** ** the interpolated parameters *)
Section Param.
  Variables (t : kt R) (v : list R).
  Hypothesis I : increasing (k_energy t).
  Hypothesis Hn : (1 <= sizeZ (k_energy t))%Z.
  Hypothesis Hv : sizeZ v = sizeZ (k_energy t).
  Notation en := (k_energy t).
  Lemma k_param_below E : E <= first_of en -> k_param t v E = Ok (first_of v).
  Proof.
    intros H. unfold k_param. rewrite frontR_R by lia. cbn [bind]. change (@nleb R NumR) with Rleb. fold (first_of en). rewrite (proj2 (Rleb_true _ _) H). rewrite frontR_R by lia. reflexivity.
  Qed.
  Lemma k_param_above E : first_of en < E -> last_of en <= E -> k_param t v E = Ok (last_of v).
  Proof.
    intros H0 H. unfold k_param. rewrite frontR_R by lia. cbn [bind]. change (@nleb R NumR) with Rleb. fold (first_of en). rewrite (proj2 (Rleb_false _ _) H0).
    rewrite backR_R by lia. cbn [bind]. change (@nleb R NumR) with Rleb. fold (last_of en). rewrite (proj2 (Rleb_true _ _) H). rewrite backR_R by lia. unfold last_of. reflexivity.
  Qed.
  Lemma k_param_inside E k : (0 <= k)%Z -> (k + 1 < sizeZ en)%Z -> getR en k < E <= getR en (k + 1) -> E < last_of en ->
    k_param t v E = Ok (match k_interp t with Histogram => getR v k | _ => mix ((E - getR en k) / (getR en (k + 1) - getR en k)) (getR v k) (getR v (k + 1)) end).
  Proof.
    intros K1 K2 H HL. assert (getR en 0 <= getR en k) by (apply I; lia).
    unfold k_param. rewrite frontR_R by lia. cbn [bind]. change (@nleb R NumR) with Rleb. rewrite (proj2 (Rleb_false _ _)) by lra.
    rewrite backR_R by lia. cbn [bind]. change (@nleb R NumR) with Rleb. fold (last_of en). rewrite (proj2 (Rleb_false _ _)) by lra.
    rewrite (lower_boundR_eq en E (k + 1) I).
    - cbn [bind]. replace (k + 1 - 1)%Z with k by lia. rewrite !atR by lia. cbn [bind]. destruct (k_interp t); cbn [interpolate]; unfold histogram_interpolate, linlin_interpolate, mix; try reflexivity; f_equal; rnum; field; lra.
    - split; [lia|]. split; intros j Hj.
      + assert (getR en j <= getR en k) by (apply I; lia). lra.
      + assert (getR en (k + 1) <= getR en j) by (apply I; lia). lra.
  Qed.
  (** always defined, between two neighbouring tabulated values *)
  Lemma k_param_between E : exists y k, k_param t v E = Ok y /\ (0 <= k)%Z /\ (k < sizeZ en)%Z /\
    exists j, (j = k \/ j = k + 1)%Z /\ (j < sizeZ en)%Z /\ Rmin (getR v k) (getR v j) <= y <= Rmax (getR v k) (getR v j).
  Proof.
    destruct (Rle_lt_dec E (first_of en)) as [H|H].
    { exists (first_of v), 0%Z. split; [apply k_param_below, H|]. split; [lia|]. split; [lia|]. exists 0%Z. split; [lia|]. split; [lia|]. unfold first_of. rewrite Rmin_left, Rmax_left by lra. lra. }
    destruct (Rle_lt_dec (last_of en) E) as [H1|H1].
    { exists (last_of v), (sizeZ en - 1)%Z. split; [apply k_param_above; assumption|]. split; [lia|]. split; [lia|]. exists (sizeZ en - 1)%Z. split; [lia|]. split; [lia|].
      unfold last_of. rewrite Hv. rewrite Rmin_left, Rmax_left by lra. lra. }
    destruct (lower_boundR en E I) as (k & _ & K0 & K1 & K2). unfold first_of in H. unfold last_of in H1.
    assert (Kp : (0 < k)%Z) by (destruct (Z_lt_dec 0 k); [assumption|]; specialize (K2 0%Z ltac:(lia)); lra).
    assert (Kn : (k < sizeZ en)%Z) by (destruct (Z_lt_dec k (sizeZ en)); [assumption|]; specialize (K1 (sizeZ en - 1)%Z ltac:(lia)); lra).
    assert (exists l, k = (l + 1)%Z) as [l ->] by (exists (k - 1)%Z; lia).
    assert (B : getR en l < E <= getR en (l + 1)) by (split; [apply K1; lia|apply K2; lia]).
    eexists _, l. split; [apply (k_param_inside E l); try assumption; try lia|]. split; [lia|]. split; [lia|]. exists (l + 1)%Z. split; [lia|]. split; [lia|].
    set (f := (E - getR en l) / (getR en (l + 1) - getR en l)). assert (F : f * (getR en (l + 1) - getR en l) = E - getR en l) by (unfold f; field; lra).
    assert (0 <= f <= 1) by nra. clearbody f. unfold Rmin, Rmax, mix. destruct (k_interp t), (Rle_dec (getR v l) (getR v (l + 1))); split; nra.
  Qed.
  (** linear tables reproduce their points *)
  Lemma k_param_point k : k_interp t = LinLin -> strictly_increasing en -> (0 <= k < sizeZ en)%Z -> k_param t v (getR en k) = Ok (getR v k).
  Proof.
    intros Hi S Hk. destruct (Z.eq_dec k 0) as [->|Q]; [apply k_param_below; unfold first_of; lra|].
    assert (F : first_of en < getR en k) by (apply S; lia).
    destruct (Z.eq_dec k (sizeZ en - 1)) as [->|Q2]; [rewrite k_param_above; [unfold last_of; rewrite Hv; reflexivity|exact F|unfold last_of; lra]|].
    assert (exists l, k = (l + 1)%Z) as [l ->] by (exists (k - 1)%Z; lia).
    rewrite (k_param_inside _ l); [|lia|lia| |apply S; lia].
    - rewrite Hi. f_equal. unfold mix. assert (getR en l < getR en (l + 1)) by (apply S; lia). field. lra.
    - assert (getR en l < getR en (l + 1)) by (apply S; lia). lra.
  Qed.
  (** histogram tables return the previous point's value at an interior point *)
  Lemma k_param_histogram_point k : k_interp t = Histogram -> strictly_increasing en -> (0 < k)%Z -> (k + 1 < sizeZ en)%Z -> k_param t v (getR en k) = Ok (getR v (k - 1)).
  Proof.
    intros Hi S Hk Hk2. assert (exists l, k = (l + 1)%Z) as [l ->] by (exists (k - 1)%Z; lia).
    assert (getR en l < getR en (l + 1)) by (apply S; lia).
    rewrite (k_param_inside _ l); [|lia|lia|lra|apply S; lia]. rewrite Hi. replace (l + 1 - 1)%Z with l by lia. reflexivity.
  Qed.
End Param.

(** ** angular density *)
Lemma sinh_pos a : 0 < a -> 0 < sinh a.
Proof. intros H. rewrite <- sinh_0. apply sinh_lt, H. Qed.
Lemma sinh_neq a : a <> 0 -> sinh a <> 0.
Proof.
  intros H. destruct (Rlt_or_le 0 a) as [L|L]; [pose proof (sinh_pos a L); lra|]. assert (a < 0) by lra.
  pose proof (sinh_lt a 0 H0). rewrite sinh_0 in H1. lra.
Qed.
Lemma mu_p_density mu a r : a <> 0 -> @mu_p R NumR mu a r = kalbach_density a r mu.
Proof. intros H. pose proof (sinh_neq a H). unfold mu_p, kalbach_density. change (@nlit R NumR 1 2) with (1 / 2). rnum. field. assumption. Qed.
Lemma sinh_m1 a : sinh (a * -1) = - sinh a.
Proof. unfold sinh. replace (a * -1) with (- a) by ring. rewrite Ropp_involutive. field. Qed.
Lemma cosh_m1 a : cosh (a * -1) = cosh a.
Proof. unfold cosh. replace (a * -1) with (- a) by ring. rewrite Ropp_involutive. field. Qed.
Lemma dsinh a x : is_derive (fun t : R => sinh (a * t)) x (a * cosh (a * x)).
Proof. unfold sinh. auto_derive; [trivial|]. unfold cosh. field. Qed.
Lemma dcosh a x : is_derive (fun t : R => cosh (a * t)) x (a * sinh (a * x)).
Proof. unfold cosh. auto_derive; [trivial|]. unfold sinh. field. Qed.
(** the cumulative distribution *)
Lemma kalbach_cdf a r x y : a <> 0 -> is_RInt (kalbach_density a r) x y ((sinh (a * y) - sinh (a * x) + r * (cosh (a * y) - cosh (a * x))) / (2 * sinh a)).
Proof.
  intros Ha. pose proof (sinh_neq a Ha) as Hs.
  assert (D : forall z, is_derive (fun z => / (2 * sinh a) * (sinh (a * z) - (- r) * cosh (a * z))) z (kalbach_density a r z)).
  { intros z. replace (kalbach_density a r z) with (/ (2 * sinh a) * (a * cosh (a * z) - (- r) * (a * sinh (a * z)))) by (unfold kalbach_density; field; exact Hs).
    apply (dR_scal (fun z => sinh (a * z) - - r * cosh (a * z))), dR_minus; [apply dsinh|apply dR_scal, dcosh]. }
  eapply derive_RInt with (F := fun z => / (2 * sinh a) * (sinh (a * z) - (- r) * cosh (a * z))).
  - intros z _. apply D.
  - intros z _. apply (cont_of_derive _ z (a / (2 * sinh a) * (a * sinh (a * z) - (- r) * (a * cosh (a * z))))).
    apply (dR_ext (fun z => a / (2 * sinh a) * (cosh (a * z) - (- r) * sinh (a * z)))); [intros; unfold kalbach_density; ring|].
    apply (dR_scal (fun z => cosh (a * z) - - r * sinh (a * z))), dR_minus; [apply dcosh|apply dR_scal, dsinh].
  - field. exact Hs.
Qed.
Lemma kalbach_normalised a r : a <> 0 -> is_RInt (kalbach_density a r) (-1) 1 1.
Proof.
  intros Ha. pose proof (sinh_neq a Ha). eapply iR_val; [|apply kalbach_cdf, Ha]. rewrite sinh_m1, cosh_m1, Rmult_1_r. field. assumption.
Qed.
Lemma cosh_sinh_pos r x : -1 <= r <= 1 -> 0 <= cosh x + r * sinh x.
Proof.
  intros H. unfold cosh, sinh. pose proof (exp_pos x). pose proof (exp_pos (- x)).
  replace ((exp x + exp (- x)) / 2 + r * ((exp x - exp (- x)) / 2)) with ((1 + r) * exp x / 2 + (1 - r) * exp (- x) / 2) by field.
  assert (0 <= (1 + r) * exp x) by (apply Rmult_le_pos; lra). assert (0 <= (1 - r) * exp (- x)) by (apply Rmult_le_pos; lra). lra.
Qed.
Lemma kalbach_nonneg a r mu : 0 < a -> -1 <= r <= 1 -> 0 <= kalbach_density a r mu.
Proof.
  intros Ha Hr. pose proof (sinh_pos a Ha). unfold kalbach_density. apply Rmult_le_pos; [|apply cosh_sinh_pos, Hr]. left. apply Rdiv_lt_0_compat; lra.
Qed.

(** ** sampling of the cosine *)
Lemma sinh_inj x y : sinh x = sinh y -> x = y.
Proof. intros H. destruct (Rtotal_order x y) as [L|[L|L]]; [pose proof (sinh_lt _ _ L); lra|exact L|pose proof (sinh_lt _ _ L); lra]. Qed.
Lemma sinh_le_rev x y : sinh x <= sinh y -> x <= y.
Proof. intros H. destruct (Rle_lt_dec x y) as [L|L]; [exact L|]. pose proof (sinh_lt _ _ L). lra. Qed.
(** first branch: inverse CDF of the symmetric part (r = 0) *)
Lemma kal_mu_sym Rv Av x y ds : 0 < Av -> Rv < x -> 0 <= y < 1 -> exists mu, kal_mu Rv Av (x :: y :: ds) = Ok (mu, ds) /\ -1 <= mu <= 1 /\
  sinh (Av * mu) = (2 * y - 1) * sinh Av.
Proof.
  intros Ha Hx Hy. pose proof (sinh_pos Av Ha) as Hs. set (TT := (2 * y - 1) * sinh Av).
  set (mu := 1 / Av * ln (TT + sqrt (TT * TT + 1))).
  assert (E : sinh (Av * mu) = TT).
  { unfold mu. replace (Av * (1 / Av * ln (TT + sqrt (TT * TT + 1)))) with (arcsinh TT); [apply sinh_arcsinh|]. unfold arcsinh. replace (TT ^ 2) with (TT * TT) by ring. field. lra. }
  assert (B : -1 <= mu <= 1).
  { assert (- sinh Av <= TT <= sinh Av) by (unfold TT; split; nra).
    assert (- Av <= Av * mu). { apply sinh_le_rev. rewrite E. replace (- Av) with (Av * -1) by ring. rewrite sinh_m1. lra. }
    assert (Av * mu <= Av) by (apply sinh_le_rev; rewrite E; lra). split; nra. }
  exists mu. split; [|split; assumption]. unfold kal_mu, rbind, draw, rret. change (@nltb R NumR) with Rltb. rewrite (proj2 (Rltb_true _ _) Hx).
  f_equal. f_equal. rewrite <- (clamp_mu_id mu B). f_equal.
Qed.
(** second branch: inverse CDF of the exponential part (r = 1) *)
Lemma kal_mu_exp Rv Av x y ds : 0 < Av -> x <= Rv -> 0 <= y < 1 -> exists mu, kal_mu Rv Av (x :: y :: ds) = Ok (mu, ds) /\ -1 <= mu <= 1 /\
  exp (Av * mu) = y * exp Av + (1 - y) * exp (- Av).
Proof.
  intros Ha Hx Hy. set (Q := y * exp Av + (1 - y) * exp (- Av)). pose proof (exp_pos Av). pose proof (exp_pos (- Av)).
  assert (Hm : exp (- Av) < exp Av) by (apply exp_increasing; lra).
  assert (HQ : exp (- Av) <= Q <= exp Av) by (unfold Q; split; nra). set (mu := 1 / Av * ln Q).
  assert (E : exp (Av * mu) = Q). { unfold mu. replace (Av * (1 / Av * ln Q)) with (ln Q) by (field; lra). apply exp_ln. lra. }
  assert (B : -1 <= mu <= 1).
  { assert (- Av <= ln Q) by (rewrite <- (ln_exp (- Av)); apply ln_le; lra). assert (ln Q <= Av) by (pose proof (ln_le Q (exp Av) ltac:(lra) ltac:(lra)) as L0; rewrite ln_exp in L0; exact L0).
    assert (Hm2 : Av * mu = ln Q) by (unfold mu; field; lra). split; nra. }
  exists mu. split; [|split; assumption]. unfold kal_mu, rbind, draw, rret. change (@nltb R NumR) with Rltb. rewrite (proj2 (Rltb_false _ _)) by lra.
  f_equal. f_equal. rewrite <- (clamp_mu_id mu B). f_equal.
Qed.
Lemma sym_cdf Av mu y : 0 < Av -> sinh (Av * mu) = (2 * y - 1) * sinh Av -> is_RInt (kalbach_density Av 0) (-1) mu y.
Proof. intros Ha E. pose proof (sinh_pos Av Ha). eapply iR_val; [|apply kalbach_cdf; lra]. rewrite E, sinh_m1. field. lra. Qed.
Lemma exp_cdf Av mu y : 0 < Av -> exp (Av * mu) = y * exp Av + (1 - y) * exp (- Av) -> is_RInt (kalbach_density Av 1) (-1) mu y.
Proof.
  intros Ha E. pose proof (sinh_pos Av Ha). eapply iR_val; [|apply kalbach_cdf; lra].
  replace (sinh (Av * mu) - sinh (Av * -1) + 1 * (cosh (Av * mu) - cosh (Av * -1))) with (exp (Av * mu) - exp (Av * -1)) by (unfold sinh, cosh; field).
  rewrite E. replace (Av * -1) with (- Av) by ring. unfold sinh in *. field. lra.
Qed.
Lemma kalbach_mixture a r mu : kalbach_density a r mu = (1 - r) * kalbach_density a 0 mu + r * kalbach_density a 1 mu.
Proof. unfold kalbach_density. ring. Qed.
Lemma kal_mu_cosine Rv Av ds mu ds' : kal_mu Rv Av ds = Ok (mu, ds') -> -1 <= mu <= 1.
Proof.
  unfold kal_mu. intros H. apply rbind_ok in H as (x & ds1 & _ & H). destruct (nltb Rv x); apply rbind_ok in H as (y & ds2 & _ & H); apply rret_ok in H as [<- _]; apply clamp_mu_bounds.
Qed.

(** ** angle pdf of a table is normalised *)
Lemma k_mu_ok t mu k : valid_kt t -> (0 <= k < sizeZ (k_energy t))%Z -> k_mu t mu k = Ok (mu_p mu (getR (k_A t) k) (getR (k_R t) k)).
Proof. intros [V HR HA] Hk. unfold k_mu. rewrite !atR by lia. reflexivity. Qed.
Lemma k_angle_sum t : valid_kt t -> (forall a, In a (k_A t) -> a <> 0) -> forall m i acc, (0 <= i)%Z -> (i + Z.of_nat m < sizeZ (k_energy t))%Z ->
  exists g, (forall mu, angle_sum (k_mu t mu) (k_energy t) (k_pdf t) (k_interp t) m i acc = Ok (acc + g mu)) /\
    is_RInt g (-1) 1 (getR (k_cdf t) (i + Z.of_nat m) - getR (k_cdf t) i).
Proof.
  intros VK HA. pose proof VK as [V HR HAs]. assert (Hp : sizeZ (k_pdf t) = sizeZ (k_energy t)) by (destruct V; unfold sizeZ; congruence).
  assert (Ha : forall k, (0 <= k < sizeZ (k_energy t))%Z -> getR (k_A t) k <> 0) by (intros k Hk; apply HA, getR_In; lia).
  set (mp k mu := @mu_p R NumR mu (getR (k_A t) k) (getR (k_R t) k)).
  assert (Im : forall k, (0 <= k < sizeZ (k_energy t))%Z -> is_RInt (mp k) (-1) 1 1).
  { intros k Hk. apply is_RInt_ext with (kalbach_density (getR (k_A t) k) (getR (k_R t) k)); [intros x _; symmetry; apply mu_p_density, Ha, Hk|apply kalbach_normalised, Ha, Hk]. }
  induction m as [|m IH]; intros i acc H1 H2.
  - exists (fun _ => 0). split; [intros mu; cbn [angle_sum]; f_equal; ring|]. eapply iR_val; [|apply iR_const]. change (Z.of_nat 0) with 0%Z. rewrite Z.add_0_r. ring.
  - pose proof (vt_area _ _ _ _ V i ltac:(lia) ltac:(lia)) as Ar.
    set (e1 := getR (k_energy t) i) in *. set (e2 := getR (k_energy t) (i + 1)) in *. set (p1 := getR (k_pdf t) i) in *. set (p2 := getR (k_pdf t) (i + 1)) in *.
    set (h mu := match k_interp t with Histogram => p1 * (e2 - e1) * mp i mu | _ => (p1 / 2 * (e2 - e1)) * mp i mu + (p2 / 2 * (e2 - e1)) * mp (i + 1)%Z mu end).
    assert (Ih : is_RInt h (-1) 1 (getR (k_cdf t) (i + 1) - getR (k_cdf t) i)).
    { rewrite Ar. unfold h, seg_area. destruct (k_interp t);
        [eapply iR_val; [|apply iR_scal, Im; lia]; ring|..]; (eapply iR_val; [|apply iR_plus; apply iR_scal, Im; lia]; field). }
    assert (Step : forall mu acc', angle_sum (k_mu t mu) (k_energy t) (k_pdf t) (k_interp t) (S m) i acc' = angle_sum (k_mu t mu) (k_energy t) (k_pdf t) (k_interp t) m (i + 1)%Z (acc' + h mu)).
    { intros mu acc'. cbn [angle_sum]. rewrite k_mu_ok by (try assumption; lia). cbn [bind]. rewrite !atR by lia. cbn [bind]. fold e1 e2 p1 p2. fold (mp i mu).
      unfold h. destruct (k_interp t); [f_equal; rnum; ring|..]; rewrite k_mu_ok by (try assumption; lia); cbn [bind]; fold (mp (i + 1)%Z mu); f_equal; change (@nlit R NumR 1 2) with (1 / 2); rnum; field. }
    destruct (IH (i + 1)%Z 0 ltac:(lia) ltac:(lia)) as (g & Hg & Ig).
    assert (Hg' : forall mu a, angle_sum (k_mu t mu) (k_energy t) (k_pdf t) (k_interp t) m (i + 1)%Z a = Ok (a + g mu)).
    { intros mu a. destruct (IH (i + 1)%Z a ltac:(lia) ltac:(lia)) as (g2 & Hg2 & _). 
      assert (Acc : forall n j b c, (0 <= j)%Z -> (j + Z.of_nat n < sizeZ (k_energy t))%Z -> exists s, angle_sum (k_mu t mu) (k_energy t) (k_pdf t) (k_interp t) n j b = Ok (b + s) /\ angle_sum (k_mu t mu) (k_energy t) (k_pdf t) (k_interp t) n j c = Ok (c + s)).
      { clear - VK HR HAs Hp. induction n as [|n IHn]; intros j b c H1 H2; [exists 0; cbn [angle_sum]; rewrite !Rplus_0_r; auto|].
        cbn [angle_sum]. rewrite k_mu_ok by (try assumption; lia). cbn [bind]. rewrite !atR by lia. cbn [bind].
        destruct (k_interp t); [|rewrite k_mu_ok by (try assumption; lia); cbn [bind]..];
          (match goal with |- context [nadd b ?u] => set (w := u) end; change (nadd b w) with (b + w); change (nadd c w) with (c + w);
             destruct (IHn (j + 1)%Z (b + w) (c + w) ltac:(lia) ltac:(lia)) as (s & -> & ->); exists (w + s); split; f_equal; ring). }
      destruct (Acc m (i + 1)%Z a 0 ltac:(lia) ltac:(lia)) as (s & Ea & E0). rewrite Ea. specialize (Hg mu). rewrite E0 in Hg. injection Hg as Hg. f_equal. lra. }
    exists (fun mu => h mu + g mu). split.
    + intros mu. rewrite Step, Hg'. f_equal. ring.
    + eapply iR_val; [|apply iR_plus; [exact Ih|exact Ig]]. replace (i + 1 + Z.of_nat m)%Z with (i + Z.of_nat (S m))%Z by lia. ring.
Qed.
Lemma k_angle_pdf_normalised t : valid_kt t -> (forall a, In a (k_A t) -> a <> 0) -> exists g, (forall mu, k_angle_pdf t mu = Ok (g mu)) /\ is_RInt g (-1) 1 1.
Proof.
  intros VK HA. pose proof VK as [V HR HAs]. assert (Hp : sizeZ (k_pdf t) = sizeZ (k_energy t)) by (destruct V; unfold sizeZ; congruence).
  assert (Hc : sizeZ (k_cdf t) = sizeZ (k_energy t)) by (destruct V; unfold sizeZ; congruence). pose proof (vt_nonempty _ _ _ _ V) as Hn.
  unfold k_angle_pdf, angle_pdf_of. destruct (length (k_pdf t)) as [|m] eqn:L; [exfalso; unfold sizeZ in *; lia|].
  destruct (k_angle_sum t VK HA m 0%Z 0 ltac:(lia)) as (g & Hg & Ig); [unfold sizeZ in *; lia|].
  exists g. split; [intros mu; change (@nofZ R NumR 0) with 0; rewrite Hg; f_equal; ring|]. eapply iR_val; [|exact Ig].
  rewrite (vt_first _ _ _ _ V). replace (0 + Z.of_nat m)%Z with (sizeZ (k_cdf t) - 1)%Z by (unfold sizeZ in *; lia). rewrite (vt_last _ _ _ _ V). ring.
Qed.

(** ** KalbachTable sampling, pdf *)
Lemma k_sample_valid t xi : valid_kt t -> 0 <= xi < 1 -> exists h, k_sample t xi = Ok h /\ first_of (k_energy t) <= h <= last_of (k_energy t) /\
  is_RInt (dens (k_energy t) (k_pdf t) (k_cdf t) (k_interp t)) (first_of (k_energy t)) h xi.
Proof.
  intros [V HR HA] X. destruct (sample_spec _ _ _ _ V xi X) as (h & k & S & I & K1 & K2 & _ & K4). exists h. split; [exact S|]. split; [|exact I].
  assert (J : increasing (k_energy t)) by (destruct V; assumption).
  assert (getR (k_energy t) 0 <= getR (k_energy t) k) by (apply J; lia). assert (getR (k_energy t) (k + 1) <= getR (k_energy t) (sizeZ (k_energy t) - 1)) by (apply J; lia).
  unfold first_of, last_of. lra.
Qed.
Lemma k_pdf_safe t mu E_out : valid_kt t -> k_interp t = Histogram \/ E_out <> last_of (k_energy t) -> exists p, k_pdf2 t mu E_out = Ok p.
Proof.
  intros V H. assert (L : sizeZ (k_pdf t) = sizeZ (k_energy t)) by (destruct (vk_table t V); unfold sizeZ; congruence).
  unfold k_pdf2. apply joint_safe; first [exact H|exact L|apply (vt_values _ _ _ _ (vk_table t V))|intros; eexists; apply k_mu_ok; assumption].
Qed.
Lemma k_pdf_last_ub t mu : valid_kt t -> strictly_increasing (k_energy t) -> k_interp t = LinLin -> k_pdf2 t mu (last_of (k_energy t)) = UB.
Proof.
  intros V S Hi. apply joint_last_ub; [apply (vt_values _ _ _ _ (vk_table t V))|exact S|apply (vt_nonempty _ _ _ _ (vk_table t V))|rewrite Hi; discriminate].
Qed.
Lemma k_pdf_outside t mu E_out : valid_kt t -> E_out < first_of (k_energy t) \/ last_of (k_energy t) < E_out -> k_pdf2 t mu E_out = Ok 0.
Proof. intros V H. apply joint_outside; [apply (vt_values _ _ _ _ (vk_table t V))|apply (vt_nonempty _ _ _ _ (vk_table t V))|exact H]. Qed.

(** ** Kalbach *)
Lemma make_kal_inv energy (tables : list (kt R)) d : make_kal energy tables = Ok d -> increasing energy /\ sizeZ tables = sizeZ energy /\ d = mkKal energy tables.
Proof.
  unfold make_kal. intros M. apply bind_ok in M as (? & G2 & M). apply guard_ok in G2. apply is_sorted_increasing in G2.
  apply bind_ok in M as (? & G1 & M). apply guard_ok in G1. apply Nat.eqb_eq in G1. injection M as <-. unfold sizeZ. rewrite G1. auto.
Qed.
Lemma valid_kt_n t : valid_kt t -> (1 <= sizeZ (k_energy t))%Z. Proof. intros V. apply (vt_nonempty _ _ _ _ (vk_table t V)). Qed.
Lemma kal_sample_spec energy tables d E x1 x2 x3 x4 ds : make_kal energy tables = Ok d -> (2 <= sizeZ energy)%Z -> (forall t, In t tables -> valid_kt t) ->
  0 <= x1 < 1 -> 0 <= x2 < 1 ->
  exists l f t1 t2 h r a mu e, bracket energy E l f /\ atZ tables l = Ok t1 /\ atZ tables (l + 1) = Ok t2 /\
    let t := if Rlt_dec f x1 then t1 else t2 in
    let lo := mix f (first_of (k_energy t1)) (first_of (k_energy t2)) in let hi := mix f (last_of (k_energy t1)) (last_of (k_energy t2)) in
    k_sample t x2 = Ok h /\ k_Rof t h = Ok r /\ k_Aof t h = Ok a /\ kal_mu r a (x3 :: x4 :: ds) = Ok (mu, ds) /\
    kal_sample d E (x1 :: x2 :: x3 :: x4 :: ds) = Ok ((mu, e), ds) /\ -1 <= mu <= 1 /\ lo <= e <= hi /\
    same_fraction e lo hi h (first_of (k_energy t)) (last_of (k_energy t)).
Proof.
  intros M Hn V X1 X2. destruct (make_kal_inv _ _ _ M) as (I & L & ->).
  destruct (select_bracket energy E I Hn) as (l & f & Es & B & F). destruct B as (B1 & B2 & B3).
  destruct (limits_gen k_energy k_min k_max tables l f (fun _ => eq_refl) (fun _ => eq_refl) ltac:(lia) ltac:(lia) (fun t Ht => valid_kt_n t (V t Ht))) as (t1 & t2 & E1 & E2 & El).
  assert (V1 : valid_kt t1) by (apply V; eauto using atZ_In'). assert (V2 : valid_kt t2) by (apply V; eauto using atZ_In').
  set (t := if Rlt_dec f x1 then t1 else t2). assert (Vt : valid_kt t) by (unfold t; destruct (Rlt_dec f x1); assumption).
  destruct (k_sample_valid t x2 Vt X2) as (h & Hh & Hr & _).
  destruct (k_param_between t (k_R t) (vt_values _ _ _ _ (vk_table t Vt)) (valid_kt_n t Vt) (vk_R t Vt) h) as (r & _ & Er & _).
  destruct (k_param_between t (k_A t) (vt_values _ _ _ _ (vk_table t Vt)) (valid_kt_n t Vt) (vk_A t Vt) h) as (a & _ & Ea & _).
  assert (exists mu, kal_mu r a (x3 :: x4 :: ds) = Ok (mu, ds)) as [mu Emu].
  { unfold kal_mu, rbind, draw, rret. destruct (nltb r x3); eauto. }
  pose proof (valid_wide _ _ _ _ (vk_table _ V1)) as W1. pose proof (valid_wide _ _ _ _ (vk_table _ V2)) as W2. pose proof (valid_wide _ _ _ _ (vk_table _ Vt)) as Wt.
  set (lo := mix f (first_of (k_energy t1)) (first_of (k_energy t2))). set (hi := mix f (last_of (k_energy t1)) (last_of (k_energy t2))).
  assert (Hlh : lo <= hi) by (apply mix_le; [exact F|lra|lra]).
  destruct (unit_base_spec lo hi h (first_of (k_energy t)) (last_of (k_energy t)) Hlh Wt Hr) as (R1 & R2 & _).
  exists l, f, t1, t2, h, r, a, mu, (unit_base lo hi h (first_of (k_energy t)) (last_of (k_energy t))).
  split; [split; auto|]. split; [exact E1|]. split; [exact E2|]. cbv zeta. fold t lo hi. split; [exact Hh|]. split; [exact Er|]. split; [exact Ea|]. split; [exact Emu|].
  split; [|split; [eapply kal_mu_cosine; exact Emu|split; assumption]].
  unfold kal_sample. unfold rbind at 1, rlift at 1. cbn [kal_in kal_tables]. rewrite Es. cbn [bind]. unfold rbind at 1, rlift at 1. rewrite El. cbn [bind]. cbv zeta. cbn [u_t1 u_t2 u_a1 u_a2 u_b1 u_b2 u_min u_max]. fold lo hi.
  unfold rbind at 1, draw at 1. unfold rbind at 1, draw at 1. change (@nltb R NumR) with Rltb.
  replace (if Rltb f x1 then (t1, first_of (k_energy t1), last_of (k_energy t1)) else (t2, first_of (k_energy t2), last_of (k_energy t2))) with (t, first_of (k_energy t), last_of (k_energy t)).
  2: { unfold t. destruct (Rlt_dec f x1) as [C|C]; [rewrite (proj2 (Rltb_true f x1) C); reflexivity|rewrite (proj2 (Rltb_false f x1)) by lra; reflexivity]. }
  unfold rbind at 1, rlift at 1. rewrite Hh. cbn [bind]. unfold rbind at 1, rlift at 1. unfold k_Rof. rewrite Er. cbn [bind]. unfold rbind at 1, rlift at 1. unfold k_Aof. rewrite Ea. cbn [bind].
  unfold rbind. rewrite Emu. reflexivity.
Qed.
