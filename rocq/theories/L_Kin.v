(** * Lemmas on rotations and reference frames (exact arithmetic) *)
From Verif Require Import Base NumR M_Kin S_Kin.
Local Open Scope R_scope.

Lemma clampR lo hi a : lo <= a <= hi -> @clamp R NumR lo hi a = a.
Proof. intros. unfold clamp. rnum. rdec. reflexivity. Qed.
Lemma clamp_bounds lo hi a : lo <= hi -> lo <= @clamp R NumR lo hi a <= hi.
Proof. intros. unfold clamp. rnum. repeat rcase1; lra. Qed.


Lemma rotate_general u mu0 phi0 : norm2 u = 1 ->
  norm2 (rotate u mu0 phi0) = 1 /\ dot u (rotate u mu0 phi0) = clamp (-1) 1 mu0.
Proof.
  destruct u as [x y z]. unfold norm2, dot, rotate. cbn [vx vy vz].
  change (@nopp R NumR (nofZ 1)) with (- 1). change (@nofZ R NumR 1) with 1.
  pose proof (clamp_bounds (-1) 1 mu0 ltac:(lra)) as Hmu.
  set (mu := clamp (-1) 1 mu0) in *. clearbody mu.
  set (phi := clamp _ _ phi0). clearbody phi.
  intros Hu. rnum.
  pose proof (sin2_cos2 phi) as Hsc. unfold Rsqr in Hsc.
  set (s := sin phi) in *. set (c := cos phi) in *. clearbody s c.
  assert (HC : sqrt (1 - mu * mu) * sqrt (1 - mu * mu) = 1 - mu * mu) by (apply sqrt_sqrt; nra).
  set (C := sqrt (1 - mu * mu)) in *. clearbody C.
  destruct (Rltb_spec (1 / 10000000000) (Rabs (1 - z * z))) as [H|H].
  - assert (Hd : 0 < 1 - z * z) by (unfold Rabs in H; destruct (Rcase_abs (1 - z * z)); nra).
    assert (HD : sqrt (1 - z * z) * sqrt (1 - z * z) = 1 - z * z) by (apply sqrt_sqrt; lra).
    assert (HD0 : 0 < sqrt (1 - z * z)) by (apply sqrt_lt_R0; lra).
    set (d := sqrt (1 - z * z)) in *. clearbody d.
    cbn [vx vy vz].
    set (p := (c * x * z - s * y)). set (q := c * y * z + s * x).
    assert (Hp : C * p / d * d = C * p) by (field; lra).
    assert (Hq : C * q / d * d = C * q) by (field; lra).
    set (P := C * p / d) in *. set (Q := C * q / d) in *.
    assert (E1 : x * p + y * q = c * z * (d * d)).
    { unfold p, q. rewrite HD. replace (1 - z * z) with (x * x + y * y) by lra. ring. }
    assert (E2 : p * p + q * q = (c * c * z * z + s * s) * (d * d)).
    { unfold p, q. rewrite HD. replace (1 - z * z) with (x * x + y * y) by lra. ring. }
    assert (F1 : x * P + y * Q = C * c * z * d).
    { apply Rmult_eq_reg_r with d; [|lra]. replace ((x * P + y * Q) * d) with (x * (P * d) + y * (Q * d)) by ring.
      rewrite Hp, Hq. replace (x * (C * p) + y * (C * q)) with (C * (x * p + y * q)) by ring. rewrite E1. ring. }
    assert (F2 : P * P + Q * Q = C * C * (c * c * z * z + s * s)).
    { apply Rmult_eq_reg_r with (d * d); [|nra].
      replace ((P * P + Q * Q) * (d * d)) with ((P * d) * (P * d) + (Q * d) * (Q * d)) by ring.
      rewrite Hp, Hq. replace (C * p * (C * p) + C * q * (C * q)) with (C * C * (p * p + q * q)) by ring. rewrite E2. ring. }
    clearbody P Q. clear Hp Hq. split.
    + replace _ with ((x * x + y * y + z * z) * (mu * mu) + 2 * mu * (x * P + y * Q) + (P * P + Q * Q)
        - 2 * mu * z * c * C * d + c * c * (C * C) * (d * d)) by ring.
      rewrite F1, F2, Hu, HD, HC. replace (s * s) with (1 - c * c) by lra. ring.
    + replace _ with ((x * x + y * y + z * z) * mu + (x * P + y * Q) - z * c * C * d) by ring.
      rewrite F1, Hu. ring.
  - assert (Hd : 0 < 1 - y * y).
    { unfold Rabs in H; destruct (Rcase_abs (1 - z * z)); nra. }
    assert (HD : sqrt (1 - y * y) * sqrt (1 - y * y) = 1 - y * y) by (apply sqrt_sqrt; lra).
    assert (HD0 : 0 < sqrt (1 - y * y)) by (apply sqrt_lt_R0; lra).
    set (d := sqrt (1 - y * y)) in *. clearbody d.
    cbn [vx vy vz].
    set (p := (c * x * y + s * z)). set (q := c * y * z - s * x).
    assert (Hp : C * p / d * d = C * p) by (field; lra).
    assert (Hq : C * q / d * d = C * q) by (field; lra).
    set (P := C * p / d) in *. set (Q := C * q / d) in *.
    assert (E1 : x * p + z * q = c * y * (d * d)).
    { unfold p, q. rewrite HD. replace (1 - y * y) with (x * x + z * z) by lra. ring. }
    assert (E2 : p * p + q * q = (c * c * y * y + s * s) * (d * d)).
    { unfold p, q. rewrite HD. replace (1 - y * y) with (x * x + z * z) by lra. ring. }
    assert (F1 : x * P + z * Q = C * c * y * d).
    { apply Rmult_eq_reg_r with d; [|lra]. replace ((x * P + z * Q) * d) with (x * (P * d) + z * (Q * d)) by ring.
      rewrite Hp, Hq. replace (x * (C * p) + z * (C * q)) with (C * (x * p + z * q)) by ring. rewrite E1. ring. }
    assert (F2 : P * P + Q * Q = C * C * (c * c * y * y + s * s)).
    { apply Rmult_eq_reg_r with (d * d); [|nra].
      replace ((P * P + Q * Q) * (d * d)) with ((P * d) * (P * d) + (Q * d) * (Q * d)) by ring.
      rewrite Hp, Hq. replace (C * p * (C * p) + C * q * (C * q)) with (C * C * (p * p + q * q)) by ring. rewrite E2. ring. }
    clearbody P Q. clear Hp Hq. split.
    + replace _ with ((x * x + y * y + z * z) * (mu * mu) + 2 * mu * (x * P + z * Q) + (P * P + Q * Q)
        - 2 * mu * y * c * C * d + c * c * (C * C) * (d * d)) by ring.
      rewrite F1, F2, Hu, HD, HC. replace (s * s) with (1 - c * c) by lra. ring.
    + replace _ with ((x * x + y * y + z * z) * mu + (x * P + z * Q) - y * c * C * d) by ring.
      rewrite F1, Hu. ring.
Qed.

(** ** C40 *)
Lemma sqrt_div_pos a b : 0 <= a -> 0 < b -> sqrt (a / b) = sqrt a / sqrt b.
Proof. intros. apply sqrt_div; lra. Qed.

Lemma Rpow2 x : 0 < x -> Rpow x 2 = x * x.
Proof. intros. rewrite Rpow_pos by assumption. replace 2 with (INR 2) by (cbn; lra). rewrite Rpower_pow by assumption. ring. Qed.

(** lab energy and lab cosine in terms of speeds: s = sqrt Ein, t = sqrt Eout *)
Lemma cm_to_lab_eq Ein A mu Eout mul El :
  0 < A -> 0 <= Ein -> 0 <= Eout -> @cm_to_lab R NumR Ein A mu Eout = (mul, El) ->
  let k := / (A + 1) in
  El = Eout + k * k * Ein + 2 * mu * k * sqrt Ein * sqrt Eout /\
  (0 < El -> sqrt El * mul = sqrt Eout * mu + k * sqrt Ein).
Proof.
  intros HA HE HO H k. unfold cm_to_lab in H. rnumi. injection H as Hm He.
  rewrite Rpow2 in He, Hm by lra. split.
  - rewrite <- He, sqrt_mult by assumption. unfold k. field. lra.
  - intros HEl. rewrite He in Hm. rewrite <- Hm.
    rewrite !sqrt_div_pos by lra. assert (0 < sqrt El) by (apply sqrt_lt_R0; lra). unfold k. field. split; lra.
Qed.
Lemma lab_to_cm_eq Ein A mu Eout muc Ec :
  0 < A -> 0 <= Ein -> 0 < Eout -> @lab_to_cm R NumR Ein A mu Eout = (muc, Ec) ->
  let k := / (A + 1) in
  Ec = Eout + k * k * Ein - 2 * mu * k * sqrt Ein * sqrt Eout /\
  (0 < Ec -> sqrt Ec * muc = sqrt Eout * mu - k * sqrt Ein).
Proof.
  intros HA HE HO H k. unfold lab_to_cm in H. rnumi. injection H as Hm He.
  assert (Hs : 0 < sqrt Eout) by (apply sqrt_lt_R0; lra).
  assert (Hss : sqrt Ein * sqrt Ein = Ein) by (apply sqrt_sqrt; lra).
  split.
  - rewrite <- He, sqrt_mult, sqrt_div_pos by lra. unfold k.
    clear - Hss Hs HA. set (s := sqrt Ein) in *. clearbody s. subst Ein. field. split; lra.
  - intros HEc. rewrite He in Hm. rewrite <- Hm.
    rewrite !sqrt_div_pos by lra. assert (0 < sqrt Ec) by (apply sqrt_lt_R0; lra). unfold k. field. repeat split; lra.
Qed.

(** speed form of "mu is a cosine" : |perp|^2 = E(1-mu^2) *)
Lemma cos_bound E m w : 0 < E -> sqrt E * m = w -> w * w <= E -> -1 <= m <= 1.
Proof.
  intros HE Hw Hb. assert (0 < sqrt E) by (apply sqrt_lt_R0; lra).
  assert (sqrt E * sqrt E = E) by (apply sqrt_sqrt; lra).
  assert (E * (m * m) <= E) by (rewrite <- H0 at 1; subst w; nra).
  assert (m * m <= 1) by (apply Rmult_le_reg_l with E; lra). nra.
Qed.

Lemma cm_to_lab_spec Ein A mu Eout mul El :
  0 < A -> 0 <= Ein -> 0 <= Eout -> -1 <= mu <= 1 -> @cm_to_lab R NumR Ein A mu Eout = (mul, El) ->
  0 <= El /\
  (0 < El -> sqrt El * mul = sqrt Eout * mu + sqrt Ein / (A + 1) /\
             El * (1 - mul * mul) = Eout * (1 - mu * mu) /\ -1 <= mul <= 1).
Proof.
  intros HA HE HO Hmu H. apply cm_to_lab_eq in H; try assumption. cbv zeta in H. destruct H as [H1 H2].
  set (k := / (A + 1)) in *. assert (Hk : 0 < k) by (apply Rinv_0_lt_compat; lra).
  pose proof (sqrt_pos Ein). pose proof (sqrt_pos Eout).
  assert (Es : sqrt Ein * sqrt Ein = Ein) by (apply sqrt_sqrt; lra).
  assert (Et : sqrt Eout * sqrt Eout = Eout) by (apply sqrt_sqrt; lra).
  set (s := sqrt Ein) in *. set (t := sqrt Eout) in *. assert (Hkk : k = / (A + 1)) by reflexivity. clearbody s t k. subst Ein Eout.
  split.
  - rewrite H1. assert (0 <= k * s * t) by (apply Rmult_le_pos; [apply Rmult_le_pos|]; lra).
    pose proof (Rle_0_sqr (t - k * s)) as Hq. unfold Rsqr in Hq. nra.
  - intros HEl. specialize (H2 HEl).
    assert (Ew : sqrt El * sqrt El = El) by (apply sqrt_sqrt; lra).
    split; [rewrite H2; unfold Rdiv; rewrite <- Hkk; ring|]. split.
    + rewrite <- Ew. replace (_ * (1 - mul * mul)) with (sqrt El * sqrt El - (sqrt El * mul) * (sqrt El * mul)) by ring.
      rewrite H2, Ew, H1. ring.
    + eapply cos_bound; [exact HEl | exact H2 |]. rewrite H1. assert (0 <= (t * t) * (1 - mu * mu)) by (apply Rmult_le_pos; nra). lra.
Qed.
Lemma lab_to_cm_spec Ein A mu Eout muc Ec :
  0 < A -> 0 <= Ein -> 0 < Eout -> -1 <= mu <= 1 -> @lab_to_cm R NumR Ein A mu Eout = (muc, Ec) ->
  0 <= Ec /\
  (0 < Ec -> sqrt Ec * muc = sqrt Eout * mu - sqrt Ein / (A + 1) /\
             Ec * (1 - muc * muc) = Eout * (1 - mu * mu) /\ -1 <= muc <= 1).
Proof.
  intros HA HE HO Hmu H. apply lab_to_cm_eq in H; try assumption. cbv zeta in H. destruct H as [H1 H2].
  set (k := / (A + 1)) in *. assert (Hk : 0 < k) by (apply Rinv_0_lt_compat; lra).
  pose proof (sqrt_pos Ein). pose proof (sqrt_pos Eout).
  assert (Es : sqrt Ein * sqrt Ein = Ein) by (apply sqrt_sqrt; lra).
  assert (Et : sqrt Eout * sqrt Eout = Eout) by (apply sqrt_sqrt; lra).
  set (s := sqrt Ein) in *. set (t := sqrt Eout) in *. assert (Hkk : k = / (A + 1)) by reflexivity. clearbody s t k. subst Ein Eout.
  split.
  - rewrite H1. assert (0 <= k * s * t) by (apply Rmult_le_pos; [apply Rmult_le_pos|]; lra).
    pose proof (Rle_0_sqr (t - k * s)) as Hq. unfold Rsqr in Hq. nra.
  - intros HEc. specialize (H2 HEc).
    assert (Ew : sqrt Ec * sqrt Ec = Ec) by (apply sqrt_sqrt; lra).
    split; [rewrite H2; unfold Rdiv; rewrite <- Hkk; ring|]. split.
    + rewrite <- Ew. replace (_ * (1 - muc * muc)) with (sqrt Ec * sqrt Ec - (sqrt Ec * muc) * (sqrt Ec * muc)) by ring.
      rewrite H2, Ew, H1. ring.
    + eapply cos_bound; [exact HEc | exact H2 |]. rewrite H1. assert (0 <= (t * t) * (1 - mu * mu)) by (apply Rmult_le_pos; nra). lra.
Qed.

Lemma cm_lab_cm Ein A mu Eout mul El :
  0 < A -> 0 <= Ein -> 0 < Eout -> @cm_to_lab R NumR Ein A mu Eout = (mul, El) -> 0 < El ->
  @lab_to_cm R NumR Ein A mul El = (mu, Eout).
Proof.
  intros HA HE HO H HEl.
  destruct (@lab_to_cm R NumR Ein A mul El) as [m e] eqn:L.
  apply cm_to_lab_eq in H; try lra. apply lab_to_cm_eq in L; try lra. cbv zeta in H, L.
  destruct H as [H1 H2], L as [L1 L2]. specialize (H2 HEl).
  set (k := / (A + 1)) in *.
  assert (Es : sqrt Ein * sqrt Ein = Ein) by (apply sqrt_sqrt; lra).
  assert (Hee : e = Eout).
  { rewrite L1, H1. replace (2 * mul * k * sqrt Ein * sqrt _) with (2 * k * sqrt Ein * (sqrt El * mul)) by (rewrite H1; ring).
    rewrite H2. rewrite <- Es at 1 3. ring. }
  rewrite Hee in L2 |- *. specialize (L2 HO). f_equal.
  assert (0 < sqrt Eout) by (apply sqrt_lt_R0; lra).
  apply Rmult_eq_reg_l with (sqrt Eout); [|lra]. rewrite L2, H2. ring.
Qed.
Lemma lab_cm_lab Ein A mu Eout muc Ec :
  0 < A -> 0 <= Ein -> 0 < Eout -> @lab_to_cm R NumR Ein A mu Eout = (muc, Ec) -> 0 < Ec ->
  @cm_to_lab R NumR Ein A muc Ec = (mu, Eout).
Proof.
  intros HA HE HO H HEc.
  destruct (@cm_to_lab R NumR Ein A muc Ec) as [m e] eqn:L.
  apply lab_to_cm_eq in H; try lra. apply cm_to_lab_eq in L; try lra. cbv zeta in H, L.
  destruct H as [H1 H2], L as [L1 L2]. specialize (H2 HEc).
  set (k := / (A + 1)) in *.
  assert (Es : sqrt Ein * sqrt Ein = Ein) by (apply sqrt_sqrt; lra).
  assert (Hee : e = Eout).
  { rewrite L1. replace (2 * muc * k * sqrt Ein * sqrt Ec) with (2 * k * sqrt Ein * (sqrt Ec * muc)) by ring.
    rewrite H2, H1. rewrite <- Es at 1 3. ring. }
  rewrite Hee in L2 |- *. specialize (L2 HO). f_equal.
  assert (0 < sqrt Eout) by (apply sqrt_lt_R0; lra).
  apply Rmult_eq_reg_l with (sqrt Eout); [|lra]. rewrite L2, H2. ring.
Qed.

(** ** C42 *)
Lemma vec_eta (u : vec R) : u = mkVec (vx u) (vy u) (vz u).
Proof. destruct u; reflexivity. Qed.

Lemma norm2_zero u : norm2 u = 0 -> u = mkVec 0 0 0.
Proof. destruct u as [x y z]. unfold norm2. cbn. intros. f_equal; nra. Qed.
Lemma norm2_nonneg u : 0 <= norm2 u.
Proof. unfold norm2. nra. Qed.

Lemma conservation A (vcm V W : vec R) :
  0 < A -> norm2 W = norm2 V ->
  let vn := lin 1 vcm 1 V in let vt := lin 1 vcm (- / A) V in let vout := lin 1 vcm 1 W in
  norm2 vout + A * norm2 (lin 1 vt (/ A) (lin 1 vn (-1) vout)) = norm2 vn + A * norm2 vt.
Proof.
  intros HA H vn vt vout.
  assert (H1 : forall u, norm2 (lin 1 vcm 1 u) + A * norm2 (lin 1 vcm (- / A) u) = (1 + A) * norm2 vcm + (1 + / A) * norm2 u).
  { intros u. unfold norm2, lin. cbn. field. lra. }
  assert (H2 : lin 1 vt (/ A) (lin 1 vn (-1) vout) = lin 1 vcm (- / A) W).
  { unfold vt, vn, vout, lin. cbn. f_equal; field; lra. }
  rewrite H2. unfold vout, vn, vt. rewrite !H1, H. reflexivity.
Qed.

Lemma elastic_general E A vt mu_cm phi :
  0 <= E -> 0 < A -> -1 <= mu_cm <= 1 -> vt <> mkVec 0 0 (sqrt E) ->
  exists vout, elastic_collision A (mkVec 0 0 (sqrt E)) vt vout mu_cm /\
    let '(mu, Eo) := @elastic_out R NumR E A vt mu_cm phi in
    Eo = norm2 vout /\ 0 <= Eo /\ (0 < Eo -> mu * sqrt Eo = vz vout /\ -1 <= mu <= 1).
Proof.
  intros HE HA Hmu Hvt.
  set (vn := mkVec 0 0 (sqrt E)).
  set (vcm := lin (/ (A + 1)) vn (A / (A + 1)) vt).
  set (V := lin 1 vn (-1) vcm).
  assert (Hvn : vn = lin 1 vcm 1 V) by (unfold V, vcm, vn, lin; cbn; f_equal; ring).
  assert (Hvt' : vt = lin 1 vcm (- / A) V).
  { unfold V, vcm, vn, lin; cbn. rewrite (vec_eta vt) at 1. f_equal; field; lra. }
  assert (HV : 0 < norm2 V).
  { destruct (Rle_lt_or_eq_dec _ _ (norm2_nonneg V)) as [|H0]; [assumption|exfalso]. apply Hvt.
    symmetry in H0. apply norm2_zero in H0. fold vn. rewrite Hvn, Hvt', H0. unfold lin. cbn. f_equal; field; lra. }
  unfold elastic_out.
  assert (E1 : @vmul R NumR (mkVec (nofZ 0) (nofZ 0) (nofZ 1)) (nsqrt E) = vn).
  { unfold vmul, vn. cbn [vx vy vz]. rnum. f_equal; ring. }
  rewrite E1.
  assert (E2 : @vdiv R NumR (vadd vn (vmul vt A)) (nadd A (nofZ 1)) = vcm).
  { unfold vdiv, vadd, vmul, vcm, vn, lin. cbn [vx vy vz]. rnum. f_equal; field; lra. }
  rewrite E2.
  assert (E3 : @vsub R NumR vn vcm = V).
  { unfold V, vsub, lin. cbn [vx vy vz]. rnum. f_equal; ring. }
  rewrite E3.
  assert (E4 : @vmag R NumR V = sqrt (norm2 V)) by reflexivity.
  rewrite E4. set (S := sqrt (norm2 V)).
  assert (HS : 0 < S) by (apply sqrt_lt_R0; assumption).
  assert (HSS : S * S = norm2 V) by (apply sqrt_sqrt; lra).
  set (U := @vdiv R NumR V S).
  assert (HU : norm2 U = 1).
  { unfold U, vdiv, norm2. cbn [vx vy vz]. rnum.
    replace _ with (norm2 V / (S * S)) by (unfold norm2; field; lra). rewrite HSS. field. lra. }
  assert (HUV : V = lin S U 0 U).
  { unfold U, vdiv, lin. cbn [vx vy vz]. rnum. rewrite (vec_eta V) at 1. f_equal; field; lra. }
  destruct (@rotate_general U mu_cm phi HU) as [R1 R2]. rewrite clampR in R2 by lra.
  set (O := rotate U mu_cm phi) in *.
  set (W := @vmul R NumR O S).
  assert (HW : norm2 W = norm2 V).
  { rewrite <- HSS. unfold W, vmul, norm2. cbn [vx vy vz]. rnum.
    replace _ with (norm2 O * (S * S)) by (unfold norm2; ring). rewrite R1. ring. }
  set (vout := lin 1 vcm 1 W).
  assert (E5 : @vadd R NumR W vcm = vout).
  { unfold vadd, vout, lin. cbn [vx vy vz]. rnum. f_equal; ring. }
  rewrite E5. exists vout. split.
  - split.
    + rewrite Hvn, Hvt'. apply conservation; assumption.
    + fold vcm. fold V.
      assert (E6 : lin 1 vout (-1) vcm = W) by (unfold vout, lin; cbn [vx vy vz]; rewrite (vec_eta W) at 4; f_equal; ring).
      rewrite E6. rewrite <- HSS. rewrite HUV at 1. unfold W, vmul, dot, lin. cbn [vx vy vz]. rnum.
      rewrite <- R2. unfold dot. ring.
  - assert (E7 : @vmag R NumR vout = sqrt (norm2 vout)) by reflexivity. rewrite E7.
    assert (Hn : 0 <= norm2 vout) by apply norm2_nonneg.
    unfold vdot, vdiv. cbn [vx vy vz]. rnum. rewrite sqrt_sqrt by assumption. repeat split; try assumption.
    + assert (0 < sqrt (norm2 vout)) by (apply sqrt_lt_R0; assumption). field. lra.
    + apply (@cos_bound (norm2 vout) _ (vz vout)); [assumption| |unfold norm2; nra].
      assert (0 < sqrt (norm2 vout)) by (apply sqrt_lt_R0; assumption). field. lra.
    + apply (@cos_bound (norm2 vout) _ (vz vout)); [assumption| |unfold norm2; nra].
      assert (0 < sqrt (norm2 vout)) by (apply sqrt_lt_R0; assumption). field. lra.
Qed.

(** target at rest *)
Lemma elastic_tar E A mu_cm phi mu Eo :
  0 < E -> 0 < A -> -1 <= mu_cm <= 1 -> @elastic_out R NumR E A (mkVec 0 0 0) mu_cm phi = (mu, Eo) ->
  Eo = E * (1 + 2 * A * mu_cm + A * A) / ((1 + A) * (1 + A)) /\
  ((A - 1) / (A + 1)) * ((A - 1) / (A + 1)) * E <= Eo <= E /\
  (0 < 1 + 2 * A * mu_cm + A * A ->
     mu * sqrt (1 + 2 * A * mu_cm + A * A) = 1 + A * mu_cm /\ -1 <= mu <= 1).
Proof.
  intros HE HA Hmu Ho.
  assert (Hs : 0 < sqrt E) by (apply sqrt_lt_R0; assumption).
  assert (Hss : sqrt E * sqrt E = E) by (apply sqrt_sqrt; lra).
  destruct (@elastic_general E A (mkVec 0 0 0) mu_cm phi) as (vout & [C1 C2] & H); try lra.
  { intros H. injection H. lra. }
  rewrite Ho in H. destruct H as (H1 & H2 & H3).
  unfold lin, dot in C2. cbn [vx vy vz] in C2. unfold norm2 at 1 in C2. cbn [vx vy vz] in C2.
  unfold lin in C1. cbn [vx vy vz] in C1. unfold norm2 at 2 3 4 in C1. cbn [vx vy vz] in C1.
  set (s := sqrt E) in *.
  (* energy and momentum give the outgoing z velocity and the energy *)
  assert (Z1 : vz vout = s * (1 + A * mu_cm) / (1 + A)).
  { assert (Hq : A * s / (A + 1) * (vz vout - s / (A + 1)) = mu_cm * (A * s / (A + 1) * (A * s / (A + 1)))).
    { replace (A * s / (A + 1)) with (1 * s + -1 * (/ (A + 1) * s + A / (A + 1) * 0)) by (field; lra).
      replace (s / (A + 1)) with (/ (A + 1) * s + A / (A + 1) * 0) by (field; lra).
      rewrite <- C2 || (etransitivity; [|etransitivity; [exact C2|]]; ring). }
    assert (0 < A * s / (A + 1)) by (apply Rdiv_lt_0_compat; nra).
    assert (Hq2 : vz vout - s / (A + 1) = mu_cm * (A * s / (A + 1))).
    { apply Rmult_eq_reg_l with (A * s / (A + 1)); [|lra]. rewrite Hq. ring. }
    replace (vz vout) with (vz vout - s / (A + 1) + s / (A + 1)) by ring. rewrite Hq2. field. lra. }
  assert (Z2 : norm2 vout = E * (1 + 2 * A * mu_cm + A * A) / ((1 + A) * (1 + A))).
  { assert (Hq : (1 + A) * norm2 vout = (A - 1) * (s * s) + 2 * s * vz vout).
    { assert (C3 : norm2 vout + / A * (s * s - 2 * s * vz vout + norm2 vout) = s * s).
      { etransitivity; [|etransitivity; [exact C1|ring]]. unfold norm2. field. lra. }
      replace ((1 + A) * norm2 vout) with (A * (norm2 vout + / A * (s * s - 2 * s * vz vout + norm2 vout)) - s * s + 2 * s * vz vout)
        by (field; lra). rewrite C3. ring. }
    rewrite Z1, Hss in Hq.
    apply Rmult_eq_reg_l with (1 + A); [|lra]. rewrite Hq.
    replace (2 * s * (s * (1 + A * mu_cm) / (1 + A))) with (2 * (s * s) * (1 + A * mu_cm) / (1 + A)) by (field; lra).
    rewrite Hss. field. lra. }
  rewrite Z2 in H1. split; [exact H1|].
  assert (Hd : 0 < (1 + A) * (1 + A)) by nra.
  split; [rewrite H1; split|].
  - replace ((A - 1) / (A + 1) * ((A - 1) / (A + 1)) * E) with (E * ((A - 1) * (A - 1)) / ((1 + A) * (1 + A))) by (field; lra).
    apply Rmult_le_compat_r; [left; apply Rinv_0_lt_compat; assumption|]. apply Rmult_le_compat_l; [lra|]. nra.
  - replace E with (E * ((1 + A) * (1 + A)) / ((1 + A) * (1 + A))) at 2 by (field; lra).
    apply Rmult_le_compat_r; [left; apply Rinv_0_lt_compat; assumption|]. apply Rmult_le_compat_l; [lra|]. nra.
  - intros Hp.
    assert (HEo : 0 < Eo) by (rewrite H1; apply Rdiv_lt_0_compat; nra).
    destruct (H3 HEo) as [H4 H5]. split; [|exact H5].
    rewrite Z1, H1 in H4. rewrite sqrt_div in H4 by nra. rewrite sqrt_square in H4 by lra.
    rewrite sqrt_mult in H4 by lra. fold s in H4.
    apply Rmult_eq_reg_l with (s / (1 + A)); [|apply Rgt_not_eq, Rdiv_lt_0_compat; lra].
    transitivity (s * (1 + A * mu_cm) / (1 + A)); [rewrite <- H4; field; lra | field; lra].
Qed.

(** ** LabToCM::angle *)
Definition root_of (g mu w : R) : Prop := (g + w) * (g + w) = mu * mu * (1 + 2 * g * w + g * g).

Lemma quad_form g mu w : mu <> 0 ->
  let n := (1 - mu * mu) / (mu * mu) in
  root_of g mu w <-> (1 + n) * (w * w) + 2 * g * n * w + (n * g * g - 1) = 0.
Proof.
  intros H n. unfold root_of.
  assert (E : mu * mu * ((1 + n) * (w * w) + 2 * g * n * w + (n * g * g - 1)) =
              (g + w) * (g + w) - mu * mu * (1 + 2 * g * w + g * g)) by (unfold n; field; assumption).
  assert (mu * mu <> 0) by (apply Rmult_integral_contrapositive_currified; assumption).
  split; intros H1.
  - apply Rmult_eq_reg_l with (mu * mu); [|assumption]. rewrite E, H1. ring.
  - rewrite H1 in E. lra.
Qed.

Lemma two_roots a b c w : 0 < a -> 0 < b * b - 4 * a * c -> c <> 0 ->
  let r := sqrt (b * b - 4 * a * c) in
  a * (w * w) + b * w + c = 0 <-> w = (- b + r) / (2 * a) \/ w = 2 * c / (- b + r).
Proof.
  intros Ha HD Hc r.
  assert (Hr : r * r = b * b - 4 * a * c) by (apply sqrt_sqrt; lra).
  assert (Hn : - b + r <> 0). { intros Hz. assert (r = b) by lra. rewrite H in Hr. assert (a * c = 0) by lra.
    apply Rmult_integral in H0. lra. }
  assert (E2 : 2 * c / (- b + r) = (- b - r) / (2 * a)).
  { apply Rmult_eq_reg_r with ((- b + r) * (2 * a)); [|apply Rmult_integral_contrapositive_currified; lra].
    transitivity (4 * a * c); [field; lra|]. transitivity ((- b - r) * (- b + r)); [|field; lra]. lra. }
  rewrite E2.
  assert (E : 4 * a * (a * (w * w) + b * w + c) = (2 * a * w - (- b + r)) * (2 * a * w - (- b - r))) by (ring_simplify; nra).
  split; intros H.
  - rewrite H, Rmult_0_r in E. symmetry in E. apply Rmult_integral in E as [E|E]; [left|right];
    apply Rmult_eq_reg_l with (2 * a); try lra; field_simplify; lra.
  - apply Rmult_eq_reg_l with (4 * a); [|lra]. rewrite E. destruct H as [-> | ->]; field; lra.
Qed.

Lemma angle_two_roots Ein A Q mu :
  let g := @cm_gamma R NumR Ein A Q in
  mu <> 0 -> g * g * (1 - mu * mu) < 1 -> g * g * (1 - mu * mu) <> mu * mu ->
  exists a1 a2, @lab_to_cm_angle R NumR Ein A Q mu = (Some a1, Some a2) /\
    forall w, (w = a1 \/ w = a2) <-> root_of g mu w.
Proof.
  intros g Hmu HD Hc. unfold lab_to_cm_angle. fold g. clearbody g. rnum. set (n := (1 - mu * mu) / (mu * mu)).
  assert (Hmm : 0 < mu * mu) by nra.
  assert (Hq : (2 * g * n) * (2 * g * n) - 4 * (1 + n) * (n * g * g - 1) =
     4 * (1 - g * g * (1 - mu * mu)) / (mu * mu)).
  { unfold n. field. assumption. }
  set (D := (2 * g * n) * (2 * g * n) - 4 * (1 + n) * (n * g * g - 1)) in *.
  assert (HD' : 0 < D) by (rewrite Hq; apply Rdiv_lt_0_compat; lra).
  assert (Ha : 0 < 1 + n) by (replace (1 + n) with (/ (mu * mu)) by (unfold n; field; assumption); apply Rinv_0_lt_compat; assumption).
  assert (Hc' : n * g * g - 1 <> 0).
  { intros H. apply Hc. replace (g * g * (1 - mu * mu)) with ((n * g * g - 1) * (mu * mu) + mu * mu) by (unfold n; field; assumption).
    rewrite H. ring. }
  replace (Rltb D 0) with false by (symmetry; apply Rltb_false; lra).
  replace (Reqb mu 0) with false by (symmetry; apply Reqb_false; assumption).
  replace (Reqb D 0) with false by (symmetry; apply Reqb_false; lra).
  set (a1 := (- (2 * g * n) + sqrt D) / (2 * (1 + n))). set (a2 := 2 * (n * g * g - 1) / (- (2 * g * n) + sqrt D)).
  assert (Hor : forall a, (Rleb (-1) a || Rleb a 1)%bool = true).
  { intros a. destruct (Rleb_spec (-1) a), (Rleb_spec a 1); cbn [orb]; try reflexivity; lra. }
  exists a1, a2. rewrite !Hor. split; [reflexivity|].
  intros w. rewrite (@quad_form g mu w Hmu). fold n. symmetry. apply two_roots; [assumption| exact HD' | exact Hc'].
Qed.
Lemma angle_no_root Ein A Q mu :
  let g := @cm_gamma R NumR Ein A Q in
  mu <> 0 -> 1 < g * g * (1 - mu * mu) ->
  @lab_to_cm_angle R NumR Ein A Q mu = (None, None) /\ forall w, ~ root_of g mu w.
Proof.
  intros g Hmu HD. assert (Hmm : 0 < mu * mu) by nra. split.
  - unfold lab_to_cm_angle. fold g. clearbody g. rnum. set (n := (1 - mu * mu) / (mu * mu)).
    assert (Hq : (2 * g * n) * (2 * g * n) - 4 * (1 + n) * (n * g * g - 1) =
      4 * (1 - g * g * (1 - mu * mu)) / (mu * mu)).
    { unfold n. field. assumption. }
    rewrite Hq. replace (Rltb _ 0) with true; [reflexivity|]. symmetry. apply Rltb_true.
    apply Rmult_lt_reg_r with (mu * mu); [assumption|]. field_simplify; nra.
  - intros w H. unfold root_of in H.
    assert (E : (g + w) * (g + w) - mu * mu * (1 + 2 * g * w + g * g) =
      (w + g * (1 - mu * mu)) * (w + g * (1 - mu * mu)) - mu * mu * (1 - g * g * (1 - mu * mu))) by ring.
    assert (0 < mu * mu * (g * g * (1 - mu * mu) - 1)) by (apply Rmult_lt_0_compat; lra).
    pose proof (Rle_0_sqr (w + g * (1 - mu * mu))) as Hq. unfold Rsqr in Hq. lra.
Qed.
(** lab cosine of a CM cosine [w] *)
Definition lab_cos (g w : R) : R := (g + w) / sqrt (1 + 2 * g * w + g * g).
Lemma lab_cos_root g w : 0 < 1 + 2 * g * w + g * g ->
  forall mu, root_of g mu w <-> (lab_cos g w = mu \/ lab_cos g w = - mu).
Proof.
  intros H mu. unfold root_of, lab_cos.
  assert (0 < sqrt (1 + 2 * g * w + g * g)) by (apply sqrt_lt_R0; assumption).
  assert (Hs : sqrt (1 + 2 * g * w + g * g) * sqrt (1 + 2 * g * w + g * g) = 1 + 2 * g * w + g * g) by (apply sqrt_sqrt; lra).
  set (s := sqrt (1 + 2 * g * w + g * g)) in *. rewrite <- Hs.
  assert (Hm : (g + w) * (g + w) - mu * mu * (s * s) = (g + w - mu * s) * (g + w + mu * s)) by ring.
  split; intros E.
  - assert (Hz : (g + w - mu * s) * (g + w + mu * s) = 0) by lra. apply Rmult_integral in Hz as [Hz|Hz]; [left|right];
    apply Rmult_eq_reg_r with s; try lra; field_simplify; lra.
  - destruct E as [E|E]; [assert (g + w = mu * s)|assert (g + w = - mu * s)]; try (rewrite <- E; field; lra); rewrite H1; ring.
Qed.

(** the second root of an ordinary case has the wrong lab cosine *)
Lemma angle_one_root Ein A Q mu :
  let g := @cm_gamma R NumR Ein A Q in
  mu <> 0 -> g * g * (1 - mu * mu) = 1 ->
  exists a1, @lab_to_cm_angle R NumR Ein A Q mu = (Some a1, None) /\ forall w, w = a1 <-> root_of g mu w.
Proof.
  intros g Hmu HD. unfold lab_to_cm_angle. fold g. clearbody g. rnum. set (n := (1 - mu * mu) / (mu * mu)).
  assert (Hmm : 0 < mu * mu) by nra.
  assert (Hq : (2 * g * n) * (2 * g * n) - 4 * (1 + n) * (n * g * g - 1) =
     4 * (1 - g * g * (1 - mu * mu)) / (mu * mu)).
  { unfold n. field. assumption. }
  rewrite HD in Hq. replace (4 * (1 - 1) / (mu * mu)) with 0 in Hq by (field; assumption). rewrite Hq.
  assert (Ha : 0 < 1 + n) by (replace (1 + n) with (/ (mu * mu)) by (unfold n; field; assumption); apply Rinv_0_lt_compat; assumption).
  replace (Rltb 0 0) with false by (symmetry; apply Rltb_false; lra).
  replace (Reqb mu 0) with false by (symmetry; apply Reqb_false; assumption).
  replace (Reqb 0 0) with true by (symmetry; apply Reqb_true; reflexivity).
  assert (Hor : forall a, (Rleb (-1) a || Rleb a 1)%bool = true).
  { intros a. destruct (Rleb_spec (-1) a), (Rleb_spec a 1); cbn [orb]; try reflexivity; lra. }
  rewrite Hor. eexists. split; [reflexivity|].
  intros w. rewrite (@quad_form g mu w Hmu). fold n.
  assert (Hg : g <> 0) by (intros ->; lra). assert (Hn : n <> 0).
  { unfold n. intros Z. apply Rmult_integral in Z as [Z|Z]; [rewrite Z in HD; lra|]. apply Rinv_neq_0_compat in Z; [assumption|lra]. }
  assert (Hb : 2 * g * n <> 0) by (apply Rmult_integral_contrapositive_currified; [lra|assumption]).
  set (b := 2 * g * n) in *. set (c := n * g * g - 1) in *. set (a := 1 + n) in *. clearbody a b c.
  assert (E : - (2) * c / b = - b / (2 * a)). { apply Rmult_eq_reg_r with (b * (2 * a)); [|apply Rmult_integral_contrapositive_currified; lra]. field_simplify; lra. }
  change (-2) with (- (2)). rewrite E. clear E Hor Hn Hg.
  assert (K : 4 * a * (a * (w * w) + b * w + c) = (2 * a * w + b) * (2 * a * w + b)) by (ring_simplify; nra).
  split; intros H.
  - apply Rmult_eq_reg_l with (4 * a); [|lra]. rewrite K, H. field. lra.
  - rewrite H, Rmult_0_r in K. symmetry in K. apply Rmult_integral in K. apply Rmult_eq_reg_l with (2 * a); [|lra]. field_simplify; lra.
Qed.
Lemma angle_one_root_applies : exists Ein A Q mu, mu <> 0 /\ @cm_gamma R NumR Ein A Q * @cm_gamma R NumR Ein A Q * (1 - mu * mu) = 1.
Proof.
  exists 1, (1/2), 0, (sqrt 3 / 2). pose proof (sqrt_sqrt 3 ltac:(lra)) as S3. split; [intros E; nra|].
  unfold cm_gamma. rnum. rewrite sqrt_sqrt; [|replace (1 / (1 / 2 * (1 / 2)) * (1 / 2 * 1 / (1 / 2 + 1) / (1 / 2 * 1 / (1 / 2 + 1) + 0))) with 4 by field; lra].
  replace (1 - sqrt 3 / 2 * (sqrt 3 / 2)) with (1/4) by (field_simplify_eq; nra). field.
Qed.
Lemma gamma_2 : @cm_gamma R NumR 1 2 0 = 1 / 2.
Proof. unfold cm_gamma. rnum. replace (1 / (2 * 2) * (2 * 1 / (2 + 1) / (2 * 1 / (2 + 1) + 0))) with ((1 / 2) * (1 / 2)) by field.
  apply sqrt_square. lra. Qed.
Lemma angle_wrong_root : exists w1 w2, @lab_to_cm_angle R NumR 1 2 0 (1/2) = (Some w1, Some w2) /\
  -1 <= w2 <= 1 /\ lab_cos (@cm_gamma R NumR 1 2 0) w2 = - (1/2).
Proof.
  unfold lab_to_cm_angle. rewrite gamma_2. rnum.
  set (n := (1 - 1 / 2 * (1 / 2)) / (1 / 2 * (1 / 2))). assert (Hn : n = 3) by (unfold n; field).
  rewrite Hn.
  replace (2 * (1 / 2) * 3 * (2 * (1 / 2) * 3) - 4 * (1 + 3) * (3 * (1 / 2) * (1 / 2) - 1)) with 13 by field.
  rdec. 
  replace (- (2 * (1 / 2) * 3) + sqrt 13) with (sqrt 13 - 3) by field.
  assert (H1 : 36055 / 10000 < sqrt 13 < 36056 / 10000).
  { split; apply Rsqr_incrst_0; try (rewrite Rsqr_sqrt by lra; unfold Rsqr; lra); try lra; apply sqrt_pos. }
  assert (Hss : sqrt 13 * sqrt 13 = 13) by (apply sqrt_sqrt; lra).
  assert (E2 : 2 * (3 * (1 / 2) * (1 / 2) - 1) / (sqrt 13 - 3) = - (sqrt 13 + 3) / 8).
  { apply Rmult_eq_reg_r with (sqrt 13 - 3); [|lra]. field_simplify; [|lra]. nra. }
  rewrite E2. rdec. cbn [orb].
  do 2 eexists. split; [reflexivity|]. split; [lra|].
  destruct (proj1 (lab_cos_root (1/2) (- (sqrt 13 + 3) / 8) ltac:(lra) (1/2))) as [H|H]; [|exfalso|exact H].
  - unfold root_of. nra.
  - assert (lab_cos (1/2) (- (sqrt 13 + 3) / 8) < 0); [|lra]. unfold lab_cos.
    assert (0 < sqrt (1 + 2 * (1 / 2) * (- (sqrt 13 + 3) / 8) + 1 / 2 * (1 / 2))) by (apply sqrt_lt_R0; lra).
    apply Ropp_lt_cancel. rewrite Ropp_0, <- Ropp_div. apply Rdiv_lt_0_compat; lra.
Qed.
Lemma gamma_half : @cm_gamma R NumR 1 (1/2) 0 = 2.
Proof. unfold cm_gamma. rnum. replace (1 / (1 / 2 * (1 / 2)) * (1 / 2 * 1 / (1 / 2 + 1) / (1 / 2 * 1 / (1 / 2 + 1) + 0))) with (2 * 2) by field.
  apply sqrt_square. lra. Qed.
