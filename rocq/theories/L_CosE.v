(** * Binary64: the laboratory cosine of elastic scattering *)
From Coq Require Import Reals Lra Lia ZArith Bool List ZifyBool ZifyNat.
From Flocq Require Import Core IEEE754.BinarySingleNaN.
From Flocq Require Import IEEE754.PrimFloat.
From Coq Require Import Floats.
From Verif Require Import Base NumF S_PickF S_CosF M_Kin L_Search L_PickF L_LinF L_XsF L_CosF L_CosF2.
Import ListNotations.
Local Open Scope R_scope.
Local Notation rnd := (round radix2 (SpecFloat.fexp prec emax) (round_mode mode_NE)).
Local Notation fx := (SpecFloat.fexp prec emax).
Local Notation G := (generic_format radix2 fx).

Local Instance fx_valid : Valid_exp fx := fexp_correct prec emax Hprec.
(** a finite result has finite operands and is the rounded exact one *)
Lemma mul_fin x y : fin (x * y) -> fin x /\ fin y /\ BR (x * y) = rnd (BR x * BR y).
Proof.
  intros F. unfold fin, BR in *. rewrite mul_equiv in *. pose proof (Bmult_correct prec emax Hprec Hmax mode_NE (Prim2B x) (Prim2B y)) as M.
  revert M. case Rlt_bool_spec; intros B M.
  - destruct M as (M1 & M2 & _). rewrite M2 in F. apply andb_prop in F as [F1 F2]. auto.
  - exfalso. destruct (Bmult mode_NE (Prim2B x) (Prim2B y)); try discriminate F; cbn in M; unfold binary_overflow in M; cbn in M; discriminate M.
Qed.
Lemma add_fin x y : fin (x + y) -> fin x /\ fin y /\ BR (x + y) = rnd (BR x + BR y).
Proof.
  intros F. unfold fin, BR in *. rewrite add_equiv in *.
  assert (F1 : BinarySingleNaN.is_finite (Prim2B x) = true /\ BinarySingleNaN.is_finite (Prim2B y) = true).
  { destruct (Prim2B x) as [s|s| |s m e b], (Prim2B y) as [s'|s'| |s' m' e' b']; cbn in F; try discriminate F; auto; destruct s, s'; discriminate F. }
  destruct F1 as [F1 F2]. pose proof (Bplus_correct prec emax Hprec Hmax mode_NE (Prim2B x) (Prim2B y) F1 F2) as M.
  revert M. case Rlt_bool_spec; intros B M; [split; [exact F1|split; [exact F2|apply M]]|]. exfalso. destruct M as [M _].
  destruct (Bplus mode_NE (Prim2B x) (Prim2B y)); try discriminate F; cbn in M; unfold binary_overflow in M; cbn in M; discriminate M.
Qed.
Lemma sqrt_fin x : fin (PrimFloat.sqrt x) -> fin x /\ BR (PrimFloat.sqrt x) = rnd (R_sqrt.sqrt (BR x)).
Proof.
  intros F. unfold fin, BR in *. rewrite sqrt_equiv in *. destruct (Bsqrt_correct prec emax Hprec Hmax mode_NE (Prim2B x)) as (M1 & M2 & _). split; [|exact M1].
  rewrite M2 in F. destruct (Prim2B x) as [s|s| |s m e b]; try discriminate F; try reflexivity.
Qed.
Lemma fx_le k : (-1021 <= k)%Z -> fx k = (k - 53)%Z.
Proof. intros H. unfold SpecFloat.fexp, SpecFloat.emin. change prec with 53%Z. change emax with 1024%Z. lia. Qed.
(** the rounded square root of the rounded square is not below the number *)
Lemma sqrt_sqr z : G z -> bpow radix2 (-500) <= Rabs z -> Rabs z <= rnd (R_sqrt.sqrt (rnd (z * z))).
Proof.
  intros Gz B. assert (E2 : z * z = Rabs z * Rabs z) by (rewrite <- Rabs_mult, Rabs_pos_eq; [reflexivity|nra]). rewrite E2. clear E2. apply generic_format_abs in Gz. revert Gz B. generalize (Rabs z). clear z. intros a Ga B.
  assert (P : 0 < a) by (pose proof (bpow_gt_0 radix2 (-500)); lra).
  destruct (mag radix2 a) as [e' He]. specialize (He ltac:(lra)). rewrite Rabs_pos_eq in He by lra.
  set (e := (e' - 1)%Z) in *. assert (E1 : (e' = e + 1)%Z) by (subst e; lia). rewrite E1 in He.
  assert (Le : (-500 <= e)%Z). { assert (-500 < e + 1)%Z; [|lia]. apply (lt_bpow radix2). lra. }
  destruct (Req_dec a (bpow radix2 e)) as [->|N].
  - rewrite <- bpow_plus. rewrite (round_generic _ _ _ (bpow radix2 (e + e))); [|apply generic_format_bpow; rewrite fx_le; lia].
    rewrite bpow_plus, sqrt_square by apply bpow_ge_0. rewrite round_generic; [lra|auto with typeclass_instances|]. apply generic_format_bpow; rewrite fx_le; lia.
  - assert (M : mag radix2 a = (e + 1)%Z :> Z) by (apply mag_unique; rewrite Rabs_pos_eq by lra; replace (e + 1 - 1)%Z with e by lia; exact He).
    assert (Ul : Ulp.ulp radix2 fx a = bpow radix2 (e - 52)). { rewrite ulp_neq_0 by lra. unfold cexp. rewrite M, fx_le by lia. f_equal. lia. }
    assert (Pa : Ulp.pred radix2 fx a = a - bpow radix2 (e - 52)). { rewrite pred_eq_pos by lra. unfold Ulp.pred_pos. rewrite M. replace (e + 1 - 1)%Z with e by lia. rewrite Req_bool_false by exact N. now rewrite Ul. }
    assert (Ga2 : a >= bpow radix2 e + bpow radix2 (e - 52)).
    { apply Rle_ge. assert (Q : bpow radix2 e <= Ulp.pred radix2 fx a).
      { apply pred_ge_gt; auto with typeclass_instances; try exact Ga; try lra. apply generic_format_bpow. rewrite fx_le; lia. }
      rewrite Pa in Q. lra. }
    apply round_N_ge_midp; [auto with typeclass_instances|exact Ga|]. rewrite Pa.
    assert (Er : a * a - bpow radix2 (2 * e - 52) <= rnd (a * a)).
    { pose proof (error_le_half_ulp radix2 fx (fun x => negb (Z.even x)) (a * a)) as H. change (round radix2 fx (Znearest (fun x => negb (Z.even x)))) with rnd in H.
      assert (Us : Ulp.ulp radix2 fx (a * a) <= 2 * bpow radix2 (2 * e - 52)).
      { rewrite ulp_neq_0 by nra. unfold cexp. change 2 with (bpow radix2 1). rewrite <- bpow_plus. apply bpow_le.
        assert (Mm : (mag radix2 (a * a) <= 2 * e + 2)%Z). { apply mag_le_bpow; [nra|]. rewrite Rabs_pos_eq by nra. replace (2 * e + 2)%Z with ((e + 1) + (e + 1))%Z by lia. rewrite bpow_plus. nra. }
        assert (Mn : (2 * e < mag radix2 (a * a))%Z). { apply mag_gt_bpow. rewrite Rabs_pos_eq by nra. replace (2 * e)%Z with (e + e)%Z by lia. rewrite bpow_plus. pose proof (bpow_gt_0 radix2 e). nra. }
        rewrite fx_le by lia. lia. }
      apply Rabs_le_inv in H. lra. }
    apply Rsqr_incrst_0; try apply sqrt_pos.
    + unfold Rsqr. assert (Q : 0 <= rnd (a * a)) by (apply rnd_ge_G; [apply generic_format_0|nra]). rewrite sqrt_sqrt by exact Q.
      eapply Rlt_le_trans; [|exact Er]. set (h := bpow radix2 (e - 53)). assert (H1 : bpow radix2 (e - 52) = 2 * h). { subst h. change 2 with (bpow radix2 1). rewrite <- bpow_plus. f_equal. lia. }
      assert (H2 : bpow radix2 (2 * e - 52) = 2 * (bpow radix2 e * h)). { subst h. replace (2 * (bpow radix2 e * bpow radix2 (e - 53))) with (bpow radix2 1 * (bpow radix2 e * bpow radix2 (e - 53))) by (f_equal). rewrite <- !bpow_plus. f_equal. lia. }
      rewrite H1, H2 in *. assert (Hp : 0 < h) by apply bpow_gt_0. nra.
    + assert (bpow radix2 (e - 52) <= bpow radix2 e) by (apply bpow_le; lia). lra.
Qed.

Section L.
  Variable lm : Libm.
  Local Notation NF := (NumF lm).
  Lemma G_BR' x : G (BR x). Proof. apply G_BR. Qed.
  Lemma sq_nonneg x : 0 <= rnd (x * x). Proof. apply rnd_ge_G; [apply generic_format_0|nra]. Qed.
  Lemma component s q v : 0 <= q -> rnd (v * v) <= q -> G v -> s = rnd (R_sqrt.sqrt q) -> bpow radix2 (-490) <= s -> Rabs v <= s.
  Proof.
    intros Q L Gv -> B. destruct (Rle_lt_dec (bpow radix2 (-500)) (Rabs v)) as [H|H].
    - eapply Rle_trans; [apply sqrt_sqr; assumption|]. apply rnd_le. apply sqrt_le_1_alt. exact L.
    - assert (bpow radix2 (-500) <= bpow radix2 (-490)) by (apply bpow_le; lia). lra.
  Qed.
  Lemma quotient v s : fin v -> fin s -> 0 < BR s -> Rabs (BR v) <= BR s -> cosine (v / s).
  Proof.
    intros Fv Fs P B. assert (BIG : 4 < bpow radix2 emax) by (change 4 with (bpow radix2 2); apply bpow_lt; reflexivity).
    assert (Q : -1 <= BR v / BR s <= 1). { apply Rabs_le_inv in B. split; [apply Rmult_le_reg_r with (BR s)|apply Rmult_le_reg_r with (BR s)]; try exact P; unfold Rdiv; rewrite Rmult_assoc, Rinv_l by lra; lra. }
    pose proof (rnd_in 1 _ G_1 Q) as S. destruct (div_BR v s Fv ltac:(lra)) as [V F]; [apply Rabs_lt; lra|]. split; [exact F|rewrite V; exact S].
  Qed.
  (** the third component of a normalised vector, taken by the scalar product with (0,0,1) *)
  Lemma unit_z (w : @vec float) : let s := @vmag _ NF w in fin (s * s)%float -> bpow radix2 (-960) <= BR (s * s)%float -> cosine (@vdot _ NF (mkVec (F_ofZ 0) (F_ofZ 0) (F_ofZ 1)) (@vdiv _ NF w s)).
  Proof.
    destruct w as [x y z]. intros s FS BS. subst s. unfold vdot, vdiv, vmag in *. cbn [vx vy vz] in *.
    change (@nsqrt _ NF) with PrimFloat.sqrt in *. change (@nadd _ NF) with PrimFloat.add in *. change (@nmul _ NF) with PrimFloat.mul in *. set (s := PrimFloat.sqrt _) in *.
    apply mul_fin in FS as (Fs & _ & VS). destruct (sqrt_fin _ Fs) as [Fq Vs]. fold s in Vs. apply add_fin in Fq as (Fxy & Fzz & Vq). apply add_fin in Fxy as (Fxx & Fyy & Vxy).
    apply mul_fin in Fxx as (Fx & _ & Vx). apply mul_fin in Fyy as (Fy & _ & Vy). apply mul_fin in Fzz as (Fz & _ & Vz). rewrite Vq, Vxy, Vx, Vy, Vz in Vs.
    pose proof (sq_nonneg (BR x)) as Px. pose proof (sq_nonneg (BR y)) as Py. pose proof (sq_nonneg (BR z)) as Pz.
    set (X := rnd (BR x * BR x)) in *. set (Y := rnd (BR y * BR y)) in *. set (Z := rnd (BR z * BR z)) in *.
    assert (GX : forall t, G (rnd t)) by (intros; apply generic_format_round; auto with typeclass_instances).
    assert (X1 : X <= rnd (X + Y)) by (apply rnd_ge_G; [apply GX|lra]). assert (Y1 : Y <= rnd (X + Y)) by (apply rnd_ge_G; [apply GX|lra]).
    assert (XY : rnd (X + Y) <= rnd (rnd (X + Y) + Z)) by (apply rnd_ge_G; [apply GX|lra]). assert (Z1 : Z <= rnd (rnd (X + Y) + Z)) by (apply rnd_ge_G; [apply GX|lra]).
    assert (P : 0 <= BR s) by (rewrite Vs; apply rnd_ge_G; [apply generic_format_0|apply sqrt_pos]).
    assert (LO : bpow radix2 (-490) <= BR s).
    { apply Rnot_lt_le. intros C. assert (BR (s * s)%float <= bpow radix2 (-980)).
      { rewrite VS. apply rnd_le_G; [apply generic_format_bpow; rewrite fx_le; lia|]. change (-980)%Z with (-490 + -490)%Z. rewrite bpow_plus. nra. }
      assert (bpow radix2 (-980) < bpow radix2 (-960)) by (apply bpow_lt; lia). lra. }
    assert (PS : 0 < BR s) by (pose proof (bpow_gt_0 radix2 (-490)); lra).
    assert (C : forall v, fin v -> rnd (BR v * BR v) <= rnd (rnd (X + Y) + Z) -> cosine (v / s)).
    { intros v Fv Lv. apply quotient; try assumption. eapply component; [|exact Lv|apply G_BR|exact Vs|exact LO]. lra. }
    assert (Cx : cosine (x / s)) by (apply C; [assumption|fold X; lra]). assert (Cy : cosine (y / s)) by (apply C; [assumption|fold Y; lra]). assert (Cz : cosine (z / s)) by (apply C; [assumption|fold Z; lra]).
    change (@ndiv _ NF) with PrimFloat.div. destruct zero_BR as [V0 F0]. destruct one_BR as [V1 F1].
    assert (BIG : 4 < bpow radix2 emax) by (change 4 with (bpow radix2 2); apply bpow_lt; reflexivity).
    assert (M0 : forall v, fin v -> BR (0 * v) = 0 /\ fin (0 * v)).
    { intros v Fv. destruct (mul_BR 0 v F0 Fv) as [V F]; rewrite V0, Rmult_0_l, round_0 in *; auto with typeclass_instances. rewrite Rabs_R0. lra. }
    change (F_ofZ 0) with 0%float. change (F_ofZ 1) with 1%float. destruct Cx as [Fxs _], Cy as [Fys _], Cz as [Fzs Bz]. destruct (M0 _ Fxs) as [Va Fa]. destruct (M0 _ Fys) as [Vb Fb].
    destruct (add_BR _ _ Fa Fb) as [Vc Fc]; rewrite Va, Vb, Rplus_0_l, round_0 in *; auto with typeclass_instances; [rewrite Rabs_R0; lra|].
    assert (R1 : rnd (BR (z / s)) = BR (z / s)) by (apply round_generic; [auto with typeclass_instances|apply G_BR]).
    destruct (mul_BR _ _ F1 Fzs) as [Vd Fd]; rewrite V1, Rmult_1_l, R1 in *; [apply Rabs_lt; lra|].
    destruct (add_BR _ _ Fc Fd) as [Ve Fe]; rewrite Vc, Vd, Rplus_0_l, R1 in *; [apply Rabs_lt; lra|]. split; [exact Fe|rewrite Ve; exact Bz].
  Qed.
  Lemma elastic_cos E_in awr v_t mu_cm phi mu Eo : @elastic_out _ NF E_in awr v_t mu_cm phi = (mu, Eo) -> fin Eo -> bpow radix2 (-960) <= BR Eo -> cosine mu.
  Proof. unfold elastic_out. cbv zeta. intros H. apply pair_equal_spec in H as [<- <-]. apply unit_z. Qed.
  Lemma elastic_sample_cos e E_in ds mu Eo rest : @elastic_sample _ NF e E_in ds = Ok ((mu, Eo), rest) -> fin Eo -> / 2 ^ 960 <= BR Eo -> cosine mu.
  Proof.
    intros H F B. assert (Q : bpow radix2 (-960) = / 2 ^ 960). { change (-960)%Z with (- (960))%Z. rewrite bpow_opp. f_equal. rewrite bpow_powerRZ. reflexivity. }
    rewrite <- Q in B. unfold elastic_sample in H. cbv zeta in H. do 3 (unfold rbind at 1 in H; apply bind_ok in H as ([? ?] & _ & H)). unfold rret in H.
    match type of H with Ok (?p, _) = _ => assert (H' : p = (mu, Eo)) by (apply (f_equal (fun r => match r with Ok (q, _) => q | _ => p end)) in H; exact H) end. eapply elastic_cos; eassumption.
  Qed.
End L.
