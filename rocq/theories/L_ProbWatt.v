(** * The law of Watt::sample_energy *)
From Coq Require Import Reals Lra Lia List Arith. From Coquelicot Require Import Coquelicot.
From Verif Require Import Base NumR M_Spectra L_Search L_Legendre L_Spectra L_Spectra2 S_Prob L_Prob L_ProbEv L_Prob2 L_Gauss L_ProbMw. Import ListNotations.
Local Open Scope R_scope.
Local Notation iR := (@is_RInt R_NormedModule).

(** the candidate divided by a; m is the square root of ab/4 *)
Definition wx (m v x : R) : R := (sqrt v - m) * (sqrt v - m) + 4 * m * sqrt v * x.
Definition w_delta (m s : R) : R := Rabs (sqrt s - m).
Definition w_h (m s v : R) : R := let r := Rmax (sqrt v) (w_delta m s) in (s - m * m) / (4 * m) * / r + / 2 - r / (4 * m).
Definition WX (m s : R) : R := / 2 * (Rerf (sqrt s + m) + Rerf (sqrt s - m)) + / (2 * m * sqrt PI) * (exp (- ((sqrt s + m) * (sqrt s + m))) - exp (- ((sqrt s - m) * (sqrt s - m)))).
Lemma w_h_above m s v : 0 < m -> 0 <= s -> 0 < v -> w_delta m s <= sqrt v -> w_h m s v = (s - (sqrt v - m) * (sqrt v - m)) / (4 * m * sqrt v).
Proof. intros Hm Hs Hv H. assert (0 < sqrt v) by (apply sqrt_lt_R0; exact Hv). unfold w_h. cbv zeta. rewrite Rmax_left by exact H. field. lra. Qed.
Lemma w_h_below m s v : 0 < m -> 0 <= s -> sqrt v < w_delta m s -> w_h m s v = if Rlt_dec (m * m) s then 1 else 0.
Proof.
  intros Hm Hs H. pose proof (sqrt_pos v) as V. unfold w_h. cbv zeta. rewrite Rmax_right by lra. pose proof (sqrt_pos s) as S1. pose proof (sqrt_sqrt s Hs) as S2. unfold w_delta in *. set (r := sqrt s) in *. destruct (Rlt_dec (m * m) s) as [C|C].
  - assert (m < r) by nra. rewrite Rabs_right in * by lra. rewrite <- S2. field. lra.
  - assert (r <= m) by nra. rewrite Rabs_left1 in * by lra. rewrite <- S2. field. lra.
Qed.
Lemma w_inner m s v : 0 < m -> 0 <= s -> 0 < v -> expect 1 (fun l => match l with [x] => if Rle_dec (wx m v x) s then 1 else 0 | _ => 0 end) (if Rle_dec v ((sqrt s + m) * (sqrt s + m)) then w_h m s v else 0).
Proof.
  intros Hm Hs Hv. pose proof (sqrt_lt_R0 v Hv) as V. pose proof (sqrt_sqrt v ltac:(lra)) as V2. pose proof (sqrt_pos s) as S1. pose proof (sqrt_sqrt s Hs) as S2. set (rho := sqrt v) in *. set (r := sqrt s) in *.
  exists (fun x => if Rle_dec (wx m v x) s then 1 else 0). split; [intros x _; reflexivity|]. assert (MR : 0 < 4 * m * rho) by nra.
  assert (K1 : forall c u w, 0 <= c <= 1 -> (forall x, 0 < x < c -> (if Rle_dec (wx m v x) s then 1 else 0) = u) -> (forall x, c < x < 1 -> (if Rle_dec (wx m v x) s then 1 else 0) = w) -> iR (fun x => if Rle_dec (wx m v x) s then 1 else 0) 0 1 (c * u + (1 - c) * w)) by (intros; apply iR_step; assumption).
  unfold wx in *. fold rho in K1 |- *. destruct (Rle_dec v _) as [D|D].
  - assert (D' : rho <= r + m) by nra. destruct (Rle_lt_dec (w_delta m s) rho) as [B|B].
    + rewrite w_h_above by assumption. fold rho. set (q := (s - (rho - m) * (rho - m)) / (4 * m * rho)). assert (Q : q * (4 * m * rho) = s - (rho - m) * (rho - m)) by (unfold q; field; lra). unfold w_delta in B. fold r in B. assert (r - m <= rho /\ m - r <= rho) as [B1 B2] by (unfold Rabs in B; destruct (Rcase_abs (r - m)); lra).
      assert (Qb : 0 <= q <= 1). { split; apply (Rmult_le_reg_r (4 * m * rho)); try assumption; rewrite Q; nra. }
      eapply iR_eq; [|apply (K1 q 1 0 Qb)]; [ring| |]; intros x Hx; destruct (Rle_dec _ s) as [X|X]; try reflexivity; exfalso; nra.
    + rewrite w_h_below by assumption. unfold w_delta in B. fold r in B. destruct (Rlt_dec (m * m) s) as [C|C].
      * assert (m < r) by nra. rewrite Rabs_right in B by lra. eapply iR_eq; [|apply (K1 1 1 0)]; [ring|lra| |]; intros x Hx; destruct (Rle_dec _ s) as [X|X]; try reflexivity; exfalso; nra.
      * assert (r <= m) by nra. rewrite Rabs_left1 in B by lra. eapply iR_eq; [|apply (K1 0 1 0)]; [ring|lra| |]; intros x Hx; [lra|]. destruct (Rle_dec _ s) as [X|X]; try reflexivity; exfalso. assert (0 < 4 * m * rho * x) by nra. nra.
  - assert (D' : r + m < rho) by nra. eapply iR_eq; [|apply (K1 0 1 0)]; [ring|lra| |]; intros x Hx; [lra|]. destruct (Rle_dec _ s) as [X|X]; try reflexivity; exfalso. assert (0 < 4 * m * rho * x) by nra. nra.
Qed.
Lemma c_maxc (f : R -> R) a x : continuous f x -> continuous (fun y => Rmax (f y) a) x.
Proof. intros H. apply (c_comp (fun z => Rmax z a) f); [exact H|apply c_max]. Qed.
Lemma w_h_cont m s v : 0 < m -> 0 <= s -> continuous (w_h m s) v.
Proof.
  intros Hm Hs. assert (C : continuous (fun y => Rmax (sqrt y) (w_delta m s)) v) by (apply c_maxc; cont). unfold w_h. cbv zeta.
  apply (c_minus (fun v => (s - m * m) / (4 * m) * / Rmax (sqrt v) (w_delta m s) + / 2) (fun v => Rmax (sqrt v) (w_delta m s) / (4 * m))); [|apply c_div; exact C].
  apply c_plus; [|apply c_const]. destruct (Req_dec s (m * m)) as [->|N].
  - apply (continuous_ext (fun _ => 0)); [|apply c_const]. intros y. change (0 = (m * m - m * m) / (4 * m) * / Rmax (sqrt y) (w_delta m (m * m))). unfold Rminus, Rdiv. rewrite Rplus_opp_r. ring.
  - apply c_mult; [apply c_const|]. assert (P : w_delta m s <> 0). { unfold w_delta. apply Rabs_no_R0. intros X. apply N. rewrite <- (sqrt_sqrt s Hs). nra. }
    apply (c_comp Rinv (fun y => Rmax (sqrt y) (w_delta m s))); [exact C|]. apply continuous_Rinv. assert (0 < w_delta m s) by (pose proof (Rabs_pos (sqrt s - m)); unfold w_delta in *; lra). pose proof (Rmax_r (sqrt v) (w_delta m s)). lra.
Qed.
Definition Psi (m s v : R) : R := exp (- v) * ((sqrt v - m) * (sqrt v - m) + 1 - s) + 2 * m * G (sqrt v).
Lemma Psi_int m s u w : 0 <= u < w -> iR (fun v => exp (- v) * (s - (sqrt v - m) * (sqrt v - m))) u w (Psi m s w - Psi m s u).
Proof.
  intros H. apply (FTC_open (Psi m s)); [lra| | |].
  - intros x Hx. assert (Px : 0 < x) by lra. pose proof (sqrt_lt_R0 x Px) as R0. pose proof (sqrt_sqrt x ltac:(lra)) as R2. unfold Psi.
    assert (Ds : is_derive (fun y => sqrt y) x (1 / (2 * sqrt x))) by (apply (dR_sqrt (fun y => y)); [apply (is_derive_id x)|exact Px]).
    assert (De : is_derive (fun y => exp (- y)) x (- exp (- x))) by (auto_derive; [exact I|ring]).
    assert (Dm : is_derive (fun y => sqrt y - m) x (1 / (2 * sqrt x))). { eapply dR_val; [|apply (dR_minus (fun y => sqrt y) (fun _ => m)); [exact Ds|apply (is_derive_const (V := R_NormedModule) m)]]. change (@zero R_NormedModule) with 0. ring. }
    assert (Dq : is_derive (fun y => (sqrt y - m) * (sqrt y - m) + 1 - s) x (1 - m / sqrt x)).
    { eapply dR_val; [|apply (dR_minus (fun y => (sqrt y - m) * (sqrt y - m) + 1) (fun _ => s)); [apply (dR_plus (fun y => (sqrt y - m) * (sqrt y - m)) (fun _ => 1)); [apply (dR_mult (fun y => sqrt y - m) (fun y => sqrt y - m)); exact Dm|apply (is_derive_const (V := R_NormedModule) 1)]|apply (is_derive_const (V := R_NormedModule) s)]]. change (@zero R_NormedModule) with 0. cbv beta. field. lra. }
    eapply dR_val; [|apply (dR_plus (fun v => exp (- v) * ((sqrt v - m) * (sqrt v - m) + 1 - s)) (fun v => 2 * m * G (sqrt v))); [apply (dR_mult (fun v => exp (- v)) (fun v => (sqrt v - m) * (sqrt v - m) + 1 - s)); [exact De|exact Dq]|apply (dR_scal (fun v => G (sqrt v))), (dR_comp G (fun v => sqrt v)); [apply G_derive|exact Ds]]].
    cbv beta. rewrite R2. set (e := exp (- x)). field. lra.
  - intros x. cont.
  - intros x. unfold Psi. apply c_plus; [cont|]. apply c_mult; [apply c_const|]. apply (c_comp G sqrt); [cont|]. apply edc. eexists. apply G_derive.
Qed.
Lemma w_outer m s : 0 < m -> 0 < s -> iR (fun v => w_h m s v * mx_dens v) 0 ((sqrt s + m) * (sqrt s + m)) (WX m s).
Proof.
  intros Hm Hs. pose proof (sqrt_lt_R0 s Hs) as R0. pose proof (sqrt_sqrt s ltac:(lra)) as R2. set (r := sqrt s) in *. set (d := w_delta m s). assert (D0 : 0 <= d) by apply Rabs_pos. assert (D1 : d < r + m) by (unfold d, w_delta; fold r; unfold Rabs; destruct (Rcase_abs (r - m)); lra).
  pose proof sqrtpi as SP. pose (c := if Rlt_dec (m * m) s then 1 else 0).
  assert (Low : iR (fun v => w_h m s v * mx_dens v) 0 (d * d) (c * MX (d * d))).
  { apply (iR_ext (fun v => c * mx_dens v)); [nra| |apply iR_scal, mx_dens_int; nra]. intros x Hx. rewrite w_h_below; try lra; [reflexivity|]. fold d. rewrite <- (sqrt_square d D0). apply sqrt_lt_1; lra. }
  assert (High : iR (fun v => w_h m s v * mx_dens v) (d * d) ((r + m) * (r + m)) (/ (2 * m * sqrt PI) * (Psi m s ((r + m) * (r + m)) - Psi m s (d * d)))).
  { apply (iR_ext (fun v => / (2 * m * sqrt PI) * (exp (- v) * (s - (sqrt v - m) * (sqrt v - m))))); [nra| |apply iR_scal, Psi_int; nra]. intros x Hx. assert (0 < x) by nra. assert (0 < sqrt x) by (apply sqrt_lt_R0; lra). rewrite w_h_above; try lra.
    - unfold mx_dens. field. lra.
    - fold d. rewrite <- (sqrt_square d D0). apply sqrt_le_1; nra. }
  eapply iR_eq; [|eapply iR_chasles; [exact Low|exact High]]. unfold Psi, MX. rewrite !sqrt_square by lra. rewrite !G_erf. unfold WX. fold r. unfold c, d, w_delta. fold r. rewrite <- R2. destruct (Rlt_dec (m * m) (r * r)) as [C|C].
  - rewrite Rabs_right by nra. set (E1 := exp (- ((r - m) * (r - m)))). set (E2 := exp (- ((r + m) * (r + m)))). field. lra.
  - assert (r <= m) by nra. rewrite Rabs_left1 by lra. replace (- (r - m) * - (r - m)) with ((r - m) * (r - m)) by ring. rewrite erf_opp. set (E1 := exp (- ((r - m) * (r - m)))). set (E2 := exp (- ((r + m) * (r + m)))). field. lra.
Qed.
Definition wx4 (m : R) (l : list R) : R := match l with [x1; x2; x3; x4] => wx m (mx [x1; x2; x3]) x4 | _ => 0 end.
Lemma wx_expect m s : 0 < m -> 0 < s -> expect 4 (fun l => if Rle_dec (wx4 m l) s then 1 else 0) (WX m s).
Proof.
  intros Hm Hs. pose proof (sqrt_lt_R0 s Hs) as R0. set (S0 := (sqrt s + m) * (sqrt s + m)). assert (0 < S0) by (unfold S0; nra).
  apply (expect_app 3 1 _ (fun l => if Rle_dec (mx l) S0 then w_h m s (mx l) else 0)).
  - intros l Hl. pose proof (mx_pos l Hl) as P. apply ud3 in Hl as (x & y & z & -> & _). eapply expect_ext; [|apply (w_inner m s (mx [x; y; z])); lra]. intros u [L _]. destruct u as [|x4 [|]]; try discriminate. reflexivity.
  - apply (transfer 3 mx mx_dens (w_h m s) S0); try assumption.
    + apply mx_pos.
    + intros q Hq. exists (MX q). split; [apply mx_prob; lra|apply mx_dens_int; lra].
    + intros x Hx. unfold mx_dens. pose proof sqrtpi. apply Rmult_le_pos; [left; apply Rdiv_lt_0_compat; lra|apply Rmult_le_pos; [apply sqrt_pos|left; apply exp_pos]].
    + intros x _. apply continuity_pt_filterlim. apply w_h_cont; lra.
    + apply w_outer; assumption.
Qed.
Lemma wx_nonneg m l : 0 < m -> unit_draws 4 l -> 0 < wx4 m l.
Proof.
  intros Hm Hl. apply (ud_split 3 1) in Hl as (u & w & -> & Hu & [Lw Fw]). pose proof (mx_pos u Hu) as P. apply ud3 in Hu as (x & y & z & -> & _). destruct w as [|x4 [|]]; try discriminate. inversion Fw; subst. cbn [app wx4]. pose proof (sqrt_lt_R0 _ P) as Q. unfold wx. set (q := sqrt (mx [x; y; z])) in *. assert (0 < m * q) by (apply Rmult_lt_0_compat; assumption). assert (0 < 4 * m * q * x4) by (apply Rmult_lt_0_compat; [lra|tauto]). pose proof (Rle_0_sqr (q - m)) as SQ. unfold Rsqr in SQ. lra.
Qed.
Lemma wx_prob m s : 0 < m -> 0 <= s -> prob 4 (fun l => wx4 m l <= s) (if Rlt_dec 0 s then WX m s else 0).
Proof.
  intros Hm Hs. destruct (Rlt_dec 0 s) as [P|P].
  - exists (fun l => if Rle_dec (wx4 m l) s then 1 else 0). split; [|apply wx_expect; lra]. intros l _. destruct (Rle_dec (wx4 m l) s); [left|right]; split; auto.
  - apply prob_never. intros l Hl X. pose proof (wx_nonneg m l Hm Hl). lra.
Qed.

(** ** the sampler *)
Definition w_phi (a b : R) (l : list R) : R := match l with [x1; x2; x3; x4] => let c := cos (PI * x3 / 2) in let w := - a * (ln x1 + ln x2 * c * c) in w + 1 / 4 * a * a * b + (2 * x4 - 1) * sqrt (a * a * b * w) | _ => 0 end.
Lemma w_phi_eq a b l : 0 < a -> 0 < b -> unit_draws 4 l -> w_phi a b l = a * wx4 (sqrt (a * b / 4)) l.
Proof.
  intros Ha Hb Hl. apply (ud_split 3 1) in Hl as (u & w & -> & Hu & [Lw Fw]). pose proof (mx_pos u Hu) as P. apply ud3 in Hu as (x & y & z & -> & _). destruct w as [|x4 [|]]; try discriminate. cbn [app w_phi wx4]. cbv zeta. assert (Pab : 0 < a * b) by (apply Rmult_lt_0_compat; lra).
  set (v := mx [x; y; z]) in *. replace (- a * (ln x + ln y * cos (PI * z / 2) * cos (PI * z / 2))) with (a * v) by (unfold v; cbn; ring). unfold wx. set (m := sqrt (a * b / 4)). assert (Pm : 0 < m) by (apply sqrt_lt_R0; lra). assert (M2 : m * m = a * b / 4) by (apply sqrt_sqrt; lra). pose proof (sqrt_lt_R0 v P) as Pr. pose proof (sqrt_sqrt v ltac:(lra)) as R2. set (r := sqrt v) in *.
  assert (E : sqrt (a * a * b * (a * v)) = a * (2 * m * r)).
  { apply sqrt_sq_eq; [|assert (0 < m * r) by (apply Rmult_lt_0_compat; lra); assert (0 < a * (2 * m * r)) by (apply Rmult_lt_0_compat; lra); lra|].
    - replace (a * a * b * (a * v)) with (a * a * (a * b) * v) by ring. assert (0 < a * a * (a * b) * v) by (repeat (apply Rmult_lt_0_compat; try assumption)). lra.
    - replace (a * (2 * m * r) * (a * (2 * m * r))) with (4 * a * a * (m * m) * (r * r)) by ring. rewrite M2, R2. field. }
  rewrite E, <- R2. replace (1 / 4 * a * a * b) with (a * (a * b / 4)) by field. rewrite <- M2. ring.
Qed.
Lemma w_rejects d E a b : w_a d E = Ok a -> w_b d E = Ok b -> rejects (@w_sample R NumR d E) 4 (w_phi a b) (fun l => 0 <= w_phi a b l <= E - w_U d).
Proof.
  intros Ha Hb. split; [lia|]. split.
  - intros l r [L _] _. destruct l as [|x1 [|x2 [|x3 [|x4 [|]]]]]; try discriminate. cbn [app]. rewrite (w_step d E a b x1 x2 x3 x4 r Ha Hb). cbv zeta. match goal with |- context [accept (w_U d) E ?x] => replace x with (w_phi a b [x1; x2; x3; x4]) by (cbn; unfold nlit; cbn; reflexivity) end.
    pose proof (acc_R (w_U d) E (w_phi a b [x1; x2; x3; x4])) as A. destruct (accept (w_U d) E _); [left|right]; (split; [|reflexivity]).
    + apply A; reflexivity.
    + intros X. apply A in X. discriminate.
  - intros l L v r H. rewrite (w_eq d E a b l Ha Hb) in H. destruct l as [|x1 [|x2 [|x3 [|x4 l]]]]; cbn in L; [discriminate|discriminate|discriminate|discriminate|lia].
Qed.
Lemma w_prob a b s : 0 < a -> 0 < b -> 0 <= s -> prob 4 (fun l => 0 <= w_phi a b l <= s) (if Rlt_dec 0 (s / a) then WX (sqrt (a * b / 4)) (s / a) else 0).
Proof.
  intros Ha Hb Hs. assert (Pab : 0 < a * b) by (apply Rmult_lt_0_compat; lra). assert (Pm : 0 < sqrt (a * b / 4)) by (apply sqrt_lt_R0; lra). assert (0 <= s / a) by (apply Rle_div_r; lra).
  apply (prob_ext 4 (fun l => wx4 (sqrt (a * b / 4)) l <= s / a)); [|apply wx_prob; assumption]. intros l Hl. pose proof (wx_nonneg _ l Pm Hl) as P. rewrite (w_phi_eq a b l Ha Hb Hl). rewrite <- (Rle_div_r (wx4 (sqrt (a * b / 4)) l) s a Ha). split; intros; nra.
Qed.
Lemma WX_norm a b s : 0 < a -> 0 < b -> 0 < s -> WX (sqrt (a * b / 4)) (s / a) = / (sqrt PI * (a * sqrt (a * b / 4)) * exp (a * b / 4)) * w_norm a b s.
Proof.
  intros Ha Hb Hs. assert (Hab : 0 < a * b) by (apply Rmult_lt_0_compat; lra). pose proof sqrtpi as Hp. assert (Hxa : 0 < s / a) by (apply Rdiv_lt_0_compat; lra). set (m := sqrt (a * b / 4)). set (r := sqrt (s / a)).
  assert (Hr : 0 < r) by (apply sqrt_lt_R0; lra). assert (Hm : 0 < m) by (apply sqrt_lt_R0; lra). assert (Hr2 : r * r = s / a) by (apply sqrt_sqrt; lra). assert (Hm2 : m * m = a * b / 4) by (apply sqrt_sqrt; lra). unfold w_norm, WX. fold m r.
  assert (HK : sqrt (PI * a * a * a * b / 4) = sqrt PI * (a * m)).
  { apply sqrt_sq_eq.
    - assert (0 < PI) by apply PI_RGT_0. assert (0 < a * a) by (apply Rmult_lt_0_compat; lra). assert (0 < PI * (a * a) * (a * b)) by (apply Rmult_lt_0_compat; [apply Rmult_lt_0_compat|]; assumption). replace (PI * a * a * a * b / 4) with (PI * (a * a) * (a * b) / 4) by field. lra.
    - assert (0 < a * m) by (apply Rmult_lt_0_compat; lra). assert (0 < sqrt PI * (a * m)) by (apply Rmult_lt_0_compat; lra). lra.
    - replace (sqrt PI * (a * m) * (sqrt PI * (a * m))) with (sqrt PI * sqrt PI * (a * a) * (m * m)) by ring. rewrite Hm2, sqrtpi2. field. }
  assert (Hsm : sqrt (b * s) = 2 * r * m). { apply sqrt_sq_eq; [assert (0 < b * s) by (apply Rmult_lt_0_compat; lra); lra| |]. { assert (0 < r * m) by (apply Rmult_lt_0_compat; lra). lra. } replace (2 * r * m * (2 * r * m)) with (4 * (r * r) * (m * m)) by ring. rewrite Hr2, Hm2. field. lra. }
  rewrite HK, Hsm. unfold sinh. replace (- s / a) with (- (r * r)) by (rewrite Hr2; field; lra). rewrite <- Hm2.
  assert (E1 : exp (- ((r - m) * (r - m))) = exp (- (r * r)) * exp (2 * r * m) / exp (m * m)). { unfold Rdiv. rewrite <- exp_Ropp, <- !exp_plus. f_equal. ring. }
  assert (E2 : exp (- ((r + m) * (r + m))) = exp (- (r * r)) * exp (- (2 * r * m)) / exp (m * m)). { unfold Rdiv. rewrite <- exp_Ropp, <- !exp_plus. f_equal. ring. }
  rewrite E1, E2. pose proof (exp_pos (m * m)). field. repeat split; lra.
Qed.
Lemma w_law d E a b e : w_a d E = Ok a -> w_b d E = Ok b -> 0 < a -> 0 < b -> 0 < E - w_U d -> 0 <= e <= E - w_U d -> law (@w_sample R NumR d E) (fun v => v <= e) (if Rlt_dec 0 e then w_norm a b e / w_norm a b (E - w_U d) else 0).
Proof.
  intros Ha Hb Pa Pb D He. pose proof (w_norm_pos a b (E - w_U d) Pa Pb D) as PN. pose proof sqrtpi as SP. assert (Hab : 0 < a * b) by (apply Rmult_lt_0_compat; lra). assert (Hm : 0 < sqrt (a * b / 4)) by (apply sqrt_lt_R0; lra).
  assert (PP : 0 < sqrt PI * (a * sqrt (a * b / 4)) * exp (a * b / 4)) by (apply Rmult_lt_0_compat; [apply Rmult_lt_0_compat; [lra|apply Rmult_lt_0_compat; lra]|apply exp_pos]).
  assert (Z : forall s, 0 <= s -> prob 4 (fun l => 0 <= w_phi a b l <= s) (if Rlt_dec 0 s then / (sqrt PI * (a * sqrt (a * b / 4)) * exp (a * b / 4)) * w_norm a b s else 0)).
  { intros s Hs. pose proof (w_prob a b s Pa Pb Hs) as W. destruct (Rlt_dec 0 s) as [P|P].
    - rewrite <- WX_norm by assumption. destruct (Rlt_dec 0 (s / a)) as [|N]; [exact W|]. exfalso. apply N, Rdiv_lt_0_compat; lra.
    - destruct (Rlt_dec 0 (s / a)) as [Q|]; [|exact W]. exfalso. assert (s = 0) as -> by lra. unfold Rdiv in Q. lra. }
  set (K := / _) in Z. assert (PK : 0 < K) by (apply Rinv_0_lt_compat; exact PP).
  replace (if Rlt_dec 0 e then w_norm a b e / w_norm a b (E - w_U d) else 0) with ((if Rlt_dec 0 e then K * w_norm a b e else 0) / (K * w_norm a b (E - w_U d))) by (destruct (Rlt_dec 0 e); field; split; lra).
  apply (law_rejects _ 4 (w_phi a b) (fun l => 0 <= w_phi a b l <= E - w_U d) (fun v => v <= e)); [apply w_rejects; assumption| | |apply Rmult_lt_0_compat; assumption].
  - specialize (Z (E - w_U d) ltac:(lra)). destruct (Rlt_dec 0 (E - w_U d)); [exact Z|lra].
  - apply (prob_ext 4 (fun l => 0 <= w_phi a b l <= e)); [intros; split; intros; lra|]. apply Z; lra.
Qed.
Lemma w_density d E a b f : w_a d E = Ok a -> w_b d E = Ok b -> 0 < a -> 0 < b -> 0 < E - w_U d -> (forall x, @w_pdf R NumR d E x = Ok (f x)) -> has_density (@w_sample R NumR d E) 0 (E - w_U d) f.
Proof.
  intros Ha Hb Pa Pb D Hf. pose proof (w_norm_pos a b (E - w_U d) Pa Pb D) as PN.
  assert (F : forall x, 0 <= x <= E - w_U d -> f x = exp (- x / a) / w_norm a b (E - w_U d) * sinh (sqrt (b * x))).
  { intros x Hx. pose proof (Hf x) as H. rewrite (w_pdf_inside d E a b x Ha Hb Hx) in H. apply Ok_eq in H. symmetry. exact H. }
  split.
  - pose proof (w_law d E a b (E - w_U d) Ha Hb Pa Pb D ltac:(lra)) as L. destruct (Rlt_dec 0 (E - w_U d)); [|lra]. unfold Rdiv in L. rewrite Rinv_r in L by lra. apply (law_ext _ (fun v => v <= E - w_U d)); [|exact L]. intros v ds r0 H. apply w_range in H as [A B]. change (@nleb R NumR) with Rleb in A. change (@nofZ R NumR 0) with 0 in A. apply Rleb_true in A. split; intros; lra.
  - intros e He. pose proof (w_law d E a b e Ha Hb Pa Pb D He) as L. eexists. split; [exact L|]. destruct (Rlt_dec 0 e) as [P|P].
    + apply (iR_ext (fun x => / w_norm a b (E - w_U d) * (exp (- x / a) * sinh (sqrt (b * x))))); [lra|intros x Hx; rewrite F by lra; unfold Rdiv; ring|]. eapply iR_eq; [|apply iR_scal, (w_integral a b e Pa Pb P)]. unfold Rdiv. ring.
    + assert (e = 0) as -> by lra. exact (@is_RInt_point R_NormedModule _ 0).
Qed.
