(** * Maxwellian, Watt and N-body densities *)
From Coquelicot Require Import Coquelicot.
From Verif Require Import Base NumR L_Search L_SearchR M_Interp M_PC M_Spectra L_Interp2 L_PCR L_Legendre L_Angle L_Spectra.
From Coq Require Import ZifyBool ZifyNat.
Local Open Scope R_scope.

(** ** continuity and derivatives of composed real functions *)
Lemma c_comp (f g : R -> R) x : continuous g x -> continuous f (g x) -> continuous (fun y => f (g y)) x.
Proof. intros H1 H2. apply (continuous_comp g f x H1 H2). Qed.
Lemma c_plus (f g : R -> R) x : continuous f x -> continuous g x -> continuous (fun y => f y + g y) x.
Proof. intros H1 H2. apply (continuous_plus f g x H1 H2). Qed.
Lemma c_minus (f g : R -> R) x : continuous f x -> continuous g x -> continuous (fun y => f y - g y) x.
Proof. intros H1 H2. apply (continuous_minus f g x H1 H2). Qed.
Lemma c_mult (f g : R -> R) x : continuous f x -> continuous g x -> continuous (fun y => f y * g y) x.
Proof. intros H1 H2. apply (continuous_mult f g x H1 H2). Qed.
Lemma c_opp (f : R -> R) x : continuous f x -> continuous (fun y => - f y) x.
Proof. intros H1. apply (continuous_opp f x H1). Qed.
Lemma c_const (c x : R) : continuous (fun _ : R => c) x. Proof. apply continuous_const. Qed.
Lemma c_id (x : R) : continuous (fun y : R => y) x. Proof. apply continuous_id. Qed.
Lemma c_div (f : R -> R) (c x : R) : continuous f x -> continuous (fun y => f y / c) x.
Proof. intros H. apply (c_mult f (fun _ => / c)); [exact H|apply c_const]. Qed.
Lemma c_sqrt (f : R -> R) x : continuous f x -> continuous (fun y => sqrt (f y)) x. Proof. apply continuous_sqrt_comp. Qed.
Lemma c_exp (f : R -> R) x : continuous f x -> continuous (fun y => exp (f y)) x. Proof. apply continuous_exp_comp. Qed.
Lemma c_erf (f : R -> R) x : continuous f x -> continuous (fun y => Rerf (f y)) x. Proof. intros H. apply (c_comp Rerf); [exact H|apply erf_cont]. Qed.
Lemma c_sinh (f : R -> R) x : continuous f x -> continuous (fun y => sinh (f y)) x.
Proof. intros H. unfold sinh. apply c_div, c_minus; apply c_exp; [exact H|apply c_opp, H]. Qed.
Lemma c_pow (f : R -> R) n x : continuous f x -> continuous (fun y => f y ^ n) x.
Proof. intros H. induction n as [|n IH]; cbn [pow]; [apply c_const|apply c_mult; assumption]. Qed.
Ltac cont1 := lazymatch goal with |- continuous ?f ?x => lazymatch f with
  | (fun y => y) => exact (c_id x)
  | (fun y => Rerf (@?g y)) => refine (c_erf g x _)
  | (fun y => sinh (@?g y)) => refine (c_sinh g x _)
  | (fun y => sqrt (@?g y)) => refine (c_sqrt g x _)
  | (fun y => exp (@?g y)) => refine (c_exp g x _)
  | (fun y => Rplus (@?g y) (@?h y)) => refine (c_plus g h x _ _)
  | (fun y => Rminus (@?g y) (@?h y)) => refine (c_minus g h x _ _)
  | (fun y => Rmult (@?g y) (@?h y)) => refine (c_mult g h x _ _)
  | (fun y => Rdiv (@?g y) (@?h y)) => refine (c_div g _ x _)
  | (fun y => Ropp (@?g y)) => refine (c_opp g x _)
  | (fun y => pow (@?g y) (@?h y)) => refine (c_pow g _ x _)
  | (fun y => _) => refine (c_const _ x)
  | sqrt => refine (c_sqrt (fun y => y) x (c_id x))
  end end.
Ltac cont := repeat (cont1; cbv beta).
Lemma dR_comp (f g : R -> R) x df dg : is_derive f (g x) df -> is_derive g x dg -> is_derive (fun y => f (g y)) x (dg * df).
Proof. intros H1 H2. apply (is_derive_comp f g x df dg H1 H2). Qed.
Lemma dR_plus (f g : R -> R) x df dg : is_derive f x df -> is_derive g x dg -> is_derive (fun y => f y + g y) x (df + dg).
Proof. intros H1 H2. apply (is_derive_plus f g x df dg H1 H2). Qed.
Lemma dR_val (f : R -> R) (x u v : R) : u = v -> is_derive f x u -> is_derive f x v. Proof. intros ->. trivial. Qed.
Lemma dR_sqrt (f : R -> R) x df : is_derive f x df -> 0 < f x -> is_derive (fun y => sqrt (f y)) x (df / (2 * sqrt (f x))).
Proof. apply is_derive_sqrt. Qed.
Lemma dR_exp x : is_derive exp x (exp x). Proof. apply is_derive_exp. Qed.
Lemma d_divc (c x : R) : c <> 0 -> is_derive (fun y => y / c) x (/ c). Proof. intros H. auto_derive; [exact I|]. field. exact H. Qed.

(** ** Maxwellian *)
(** the code's normalisation and the true one *)
Definition mw_code (t du : R) : R := Rpower t (3 / 2) * (sqrt PI / 2 * Rerf (du / t) - sqrt (du / t) * exp (- du / t)).
Definition mw_true (t du : R) : R := Rpower t (3 / 2) * (sqrt PI / 2 * Rerf (sqrt (du / t)) - sqrt (du / t) * exp (- du / t)).
Lemma pow32 t : 0 < t -> Rpower t (3 / 2) = t * sqrt t.
Proof. intros H. replace (3 / 2) with (1 + / 2) by lra. rewrite Rpower_plus, Rpower_1, Rpower_sqrt by assumption. reflexivity. Qed.
Lemma sqrt_sq_eq x y : 0 <= x -> 0 <= y -> y * y = x -> sqrt x = y.
Proof. intros H1 H2 H3. apply sqrt_lem_1; assumption. Qed.
Lemma mw_integral t du : 0 < t -> 0 < du -> is_RInt (fun x => sqrt x * exp (- x / t)) 0 du (mw_true t du).
Proof.
  intros Ht Hd. assert (Hp : 0 < sqrt PI) by (apply sqrt_lt_R0, PI_RGT_0). assert (Hst : 0 < sqrt t) by (apply sqrt_lt_R0; lra).
  apply (iR_val _ _ _ (mw_true t du - mw_true t 0)).
  { replace (mw_true t 0) with 0; [ring|]. unfold mw_true. replace (0 / t) with 0 by (field; lra). rewrite sqrt_0, erf_0. ring. }
  apply (FTC_open (mw_true t)); [exact Hd| | |].
  - intros x Hx. assert (Hxt : 0 < x / t) by (apply Rdiv_lt_0_compat; lra). set (s := sqrt (x / t)). assert (Hs : 0 < s) by (apply sqrt_lt_R0; lra).
    assert (Hs2 : s * s = x / t) by (apply sqrt_sqrt; lra).
    assert (Ds : is_derive (fun y => sqrt (y / t)) x (/ t / (2 * s))) by (apply (dR_sqrt (fun y => y / t)); [apply d_divc; lra|exact Hxt]).
    assert (De : is_derive (fun y => exp (- y / t)) x (- / t * exp (- x / t))) by (auto_derive; [exact I|]; unfold Rdiv; ring).
    unfold mw_true. eapply dR_val; [|apply (dR_scal (fun y => sqrt PI / 2 * Rerf (sqrt (y / t)) - sqrt (y / t) * exp (- y / t))), (dR_minus (fun y => sqrt PI / 2 * Rerf (sqrt (y / t))) (fun y => sqrt (y / t) * exp (- y / t)));
      [apply (dR_scal (fun y => Rerf (sqrt (y / t)))), (dR_comp Rerf (fun y => sqrt (y / t))); [apply erf_derive|exact Ds]|apply (dR_mult (fun y => sqrt (y / t)) (fun y => exp (- y / t))); [exact Ds|exact De]]].
    fold s. rewrite Hs2. replace (- (x / t)) with (- x / t) by (field; lra). rewrite pow32 by lra.
    assert (Hsx : sqrt x = sqrt t * s). { unfold s. rewrite <- sqrt_mult by lra. f_equal. field. lra. }
    rewrite Hsx. set (e := exp (- x / t)). field. lra.
  - intros x. cont.
  - intros x. unfold mw_true. cont.
Qed.
Lemma mw_pdf_inside temp U E t x : temp E = Ok t -> 0 < t -> 0 <= x <= E - U -> @mw_pdf R NumR temp U E x = Ok (sqrt x / mw_code t (E - U) * exp (- x / t)).
Proof. intros Ht Hp Hx. unfold mw_pdf. change (@nsub R NumR E U) with (E - U). ins Hx. rewrite Ht. cbn [bind]. unfold mw_code. rewrite <- Rpow_pos by exact Hp. reflexivity. Qed.
Lemma mw_pdf_outside temp U E x : x < 0 \/ E - U < x -> @mw_pdf R NumR temp U E x = Ok 0.
Proof. intros Hx. unfold mw_pdf. change (@nsub R NumR E U) with (E - U). rewrite outside_test. destruct (Rlt_dec x 0); [reflexivity|]. destruct (Rlt_dec (E - U) x); [reflexivity|]. lra. Qed.
(** for du/t = 1/4 the code's normalisation is negative *)
Lemma mw_code_neg t : 0 < t -> mw_code t (t / 4) < 0.
Proof.
  intros Ht. unfold mw_code. replace (t / 4 / t) with (/ 4) by (field; lra). replace (- (t / 4) / t) with (- / 4) by (field; lra).
  assert (Hs : sqrt (/ 4) = / 2) by (apply sqrt_sq_eq; lra). rewrite Hs. pose proof (erf_le (/ 4) ltac:(lra)) as H1. pose proof (exp_ineq1 (- / 4) ltac:(lra)) as H2.
  assert (0 < Rpower t (3 / 2)) by (unfold Rpower; apply exp_pos).
  assert (sqrt PI / 2 * Rerf (/ 4) - / 2 * exp (- / 4) < 0) by lra. nra.
Qed.

(** ** Watt *)
Definition w_norm (a b du : R) : R :=
  1 / 2 * sqrt (PI * a * a * a * b / 4) * exp (a * b / 4) * (Rerf (sqrt (du / a) - sqrt (a * b / 4)) + Rerf (sqrt (du / a) + sqrt (a * b / 4))) - a * exp (- du / a) * sinh (sqrt (b * du)).
Lemma w_integral a b du : 0 < a -> 0 < b -> 0 < du -> is_RInt (fun x => exp (- x / a) * sinh (sqrt (b * x))) 0 du (w_norm a b du).
Proof.
  intros Ha Hb Hd. assert (Hp : 0 < sqrt PI) by (apply sqrt_lt_R0, PI_RGT_0).
  apply (iR_val _ _ _ (w_norm a b du - w_norm a b 0)).
  { replace (w_norm a b 0) with 0; [ring|]. unfold w_norm. replace (0 / a) with 0 by (field; lra). rewrite Rmult_0_r, sqrt_0, sinh_0.
    replace (0 - sqrt (a * b / 4)) with (- sqrt (a * b / 4)) by ring. rewrite erf_opp, Rplus_0_l. ring. }
  apply (FTC_open (w_norm a b)); [exact Hd| | |].
  - intros x Hx. assert (Hab : 0 < a * b) by (apply Rmult_lt_0_compat; assumption). assert (Hbx : 0 < b * x) by (apply Rmult_lt_0_compat; lra).
    assert (Hxa : 0 < x / a) by (apply Rdiv_lt_0_compat; lra). set (s := sqrt (x / a)). set (m := sqrt (a * b / 4)). set (r := sqrt (b * x)).
    assert (Hs : 0 < s) by (apply sqrt_lt_R0; lra). assert (Hm : 0 < m) by (apply sqrt_lt_R0; lra). assert (Hr : 0 < r) by (apply sqrt_lt_R0; lra).
    assert (Hs2 : s * s = x / a) by (apply sqrt_sqrt; lra). assert (Hm2 : m * m = a * b / 4) by (apply sqrt_sqrt; lra). assert (Hr2 : r * r = b * x) by (apply sqrt_sqrt; lra).
    assert (Hsm : r = 2 * s * m). { apply sqrt_sq_eq; [lra| |]. { assert (0 < s * m) by (apply Rmult_lt_0_compat; lra). lra. } replace (2 * s * m * (2 * s * m)) with (4 * (s * s) * (m * m)) by ring. rewrite Hs2, Hm2. field. lra. }
    assert (HK : sqrt (PI * a * a * a * b / 4) = sqrt PI * (a * m)).
    { apply sqrt_sq_eq.
      - assert (0 < PI) by apply PI_RGT_0. assert (0 < a * a) by (apply Rmult_lt_0_compat; lra). assert (0 < PI * (a * a) * (a * b)) by (apply Rmult_lt_0_compat; [apply Rmult_lt_0_compat|]; assumption). replace (PI * a * a * a * b / 4) with (PI * (a * a) * (a * b) / 4) by field. lra.
      - assert (0 < a * m) by (apply Rmult_lt_0_compat; lra). assert (0 < sqrt PI * (a * m)) by (apply Rmult_lt_0_compat; lra). lra.
      - replace (sqrt PI * (a * m) * (sqrt PI * (a * m))) with (sqrt PI * sqrt PI * (a * a) * (m * m)) by ring. rewrite Hm2, sqrt_sqrt by (left; apply PI_RGT_0). field. }
    assert (Ds : is_derive (fun y => sqrt (y / a)) x (/ a / (2 * s))) by (apply (dR_sqrt (fun y => y / a)); [apply d_divc; lra|exact Hxa]).
    assert (Dr : is_derive (fun y => sqrt (b * y)) x (b / (2 * r))). { apply (dR_sqrt (fun y => b * y)); [auto_derive; [exact I|ring]|exact Hbx]. }
    assert (De : is_derive (fun y => a * exp (- y / a)) x (- exp (- x / a))) by (auto_derive; [exact I|]; unfold Rdiv; field; lra).
    assert (Dsh : is_derive (fun y => sinh (sqrt (b * y))) x (b / (2 * r) * cosh r)). { apply (dR_comp sinh (fun y => sqrt (b * y))); [|exact Dr]. unfold sinh, cosh. auto_derive; [exact I|]. fold r. field. }
    assert (D1 : is_derive (fun y => Rerf (sqrt (y / a) - m)) x (/ a / (2 * s) * (2 / sqrt PI * exp (- ((s - m) * (s - m)))))).
    { apply (dR_comp Rerf (fun y => sqrt (y / a) - m)); [apply erf_derive|]. eapply dR_val; [|apply (dR_minus (fun y => sqrt (y / a)) (fun _ => m)); [exact Ds|apply (is_derive_const (V := R_NormedModule) m)]]. change (@zero R_NormedModule) with 0. ring. }
    assert (D2 : is_derive (fun y => Rerf (sqrt (y / a) + m)) x (/ a / (2 * s) * (2 / sqrt PI * exp (- ((s + m) * (s + m)))))).
    { apply (dR_comp Rerf (fun y => sqrt (y / a) + m)); [apply erf_derive|]. eapply dR_val; [|apply (dR_plus (fun y => sqrt (y / a)) (fun _ => m)); [exact Ds|apply (is_derive_const (V := R_NormedModule) m)]]. change (@zero R_NormedModule) with 0. ring. }
    assert (E1 : exp (a * b / 4) * exp (- ((s - m) * (s - m))) = exp (- x / a) * exp r).
    { rewrite <- !exp_plus. f_equal. rewrite Hsm, <- Hm2. replace (- x / a) with (- (s * s)) by (rewrite Hs2; field; lra). ring. }
    assert (E2 : exp (a * b / 4) * exp (- ((s + m) * (s + m))) = exp (- x / a) * exp (- r)).
    { rewrite <- !exp_plus. f_equal. rewrite Hsm, <- Hm2. replace (- x / a) with (- (s * s)) by (rewrite Hs2; field; lra). ring. }
    unfold w_norm. fold m. eapply dR_val; [|apply (dR_minus (fun y => 1 / 2 * sqrt (PI * a * a * a * b / 4) * exp (a * b / 4) * (Rerf (sqrt (y / a) - m) + Rerf (sqrt (y / a) + m))) (fun y => a * exp (- y / a) * sinh (sqrt (b * y))));
      [apply (dR_scal (fun y => Rerf (sqrt (y / a) - m) + Rerf (sqrt (y / a) + m))), (dR_plus (fun y => Rerf (sqrt (y / a) - m)) (fun y => Rerf (sqrt (y / a) + m))); [exact D1|exact D2]
      |apply (dR_mult (fun y => a * exp (- y / a)) (fun y => sinh (sqrt (b * y)))); [exact De|exact Dsh]]].
    fold r. rewrite HK.
    replace (1 / 2 * (sqrt PI * (a * m)) * exp (a * b / 4) * (/ a / (2 * s) * (2 / sqrt PI * exp (- ((s - m) * (s - m)))) + / a / (2 * s) * (2 / sqrt PI * exp (- ((s + m) * (s + m))))))
      with (m / (2 * s) * (exp (a * b / 4) * exp (- ((s - m) * (s - m))) + exp (a * b / 4) * exp (- ((s + m) * (s + m))))) by (field; lra).
    rewrite E1, E2. set (e := exp (- x / a)). unfold sinh, cosh. set (p := exp r). set (q := exp (- r)). fold r.
    assert (Hq : m / (2 * s) = a * b / (4 * r)). { rewrite Hsm. replace (a * b) with (4 * (m * m)) by (rewrite Hm2; field). field. lra. }
    rewrite Hq. field. lra.
  - intros x. cont.
  - intros x. unfold w_norm. cont.
Qed.
Lemma w_norm_pos a b du : 0 < a -> 0 < b -> 0 < du -> 0 < w_norm a b du.
Proof.
  intros Ha Hb Hd. pose proof (w_integral a b du Ha Hb Hd) as H. apply (is_RInt_unique (V := R_CompleteNormedModule)) in H. rewrite <- H.
  apply RInt_gt_0; [exact Hd| |].
  - intros x Hx. apply Rmult_lt_0_compat; [apply exp_pos|]. rewrite <- sinh_0. apply sinh_lt. apply sqrt_lt_R0. apply Rmult_lt_0_compat; lra.
  - intros x _. cont.
Qed.
Lemma w_pdf_inside d E a b x : w_a d E = Ok a -> w_b d E = Ok b -> 0 <= x <= E - w_U d -> @w_pdf R NumR d E x = Ok (exp (- x / a) / w_norm a b (E - w_U d) * sinh (sqrt (b * x))).
Proof. intros Ha Hb Hx. unfold w_pdf. change (@nsub R NumR E (w_U d)) with (E - w_U d). ins Hx. rewrite Ha. cbn [bind]. rewrite Hb. cbn [bind]. unfold w_norm. reflexivity. Qed.
Lemma w_pdf_outside d E x : x < 0 \/ E - w_U d < x -> @w_pdf R NumR d E x = Ok 0.
Proof. intros Hx. unfold w_pdf. change (@nsub R NumR E (w_U d)) with (E - w_U d). rewrite outside_test. destruct (Rlt_dec x 0); [reflexivity|]. destruct (Rlt_dec (E - w_U d) x); [reflexivity|]. lra. Qed.
