(** * Binary64: outgoing energies of the N-body law *)
From Coq Require Import Reals Lra Lia ZArith Bool List ZifyBool ZifyNat.
From Flocq Require Import Core IEEE754.BinarySingleNaN.
From Flocq Require Import IEEE754.PrimFloat.
From Coq Require Import Floats.
From Verif Require Import Base NumF S_PickF M_PC M_Spectra L_Search L_OrderF L_PickF L_LinF L_XsF L_CosF L_CosF2 L_CosE L_CosG.
Import ListNotations.
Local Open Scope R_scope.
Local Notation rnd := (round radix2 (SpecFloat.fexp prec emax) (round_mode mode_NE)).
Local Notation fx := (SpecFloat.fexp prec emax).
Local Notation G := (generic_format radix2 fx).
Local Notation B64 := (binary_float prec emax).

Local Existing Instance Hprec.
Local Existing Instance Hmax.
(** sign [s], or zero, or NaN *)
Definition sgn (s : bool) (b : B64) : Prop := match b with B754_nan => True | B754_zero _ => True | B754_infinity t => t = s | B754_finite t _ _ _ => t = s end.
Lemma overflow_sgn s b : B2SF b = binary_overflow prec emax mode_NE s -> sgn s b.
Proof. unfold binary_overflow. cbn. destruct b; cbn; intros H; try discriminate H; injection H as ->; reflexivity. Qed.
Lemma sign_R s b : sgn s b -> if (s : bool) then B2R b <= 0 else 0 <= B2R b.
Proof. destruct b as [t|t| |t m e Hb]; cbn; intros H; try (destruct s; lra). subst t. destruct s; [apply F2R_le_0|apply F2R_ge_0]; cbn; lia. Qed.
Lemma R_sign s b : BinarySingleNaN.is_finite b = true -> (if (s : bool) then B2R b <= 0 else 0 <= B2R b) -> sgn s b.
Proof.
  destruct b as [t|t| |t m e Hb]; cbn; intros F H; try exact I; try discriminate F. destruct t, s; try reflexivity; exfalso.
  - assert (F2R (Float radix2 (Z.neg m) e) < 0) by (apply F2R_lt_0; cbn; lia). unfold SpecFloat.cond_Zopp in H. cbn in H. lra.
  - assert (0 < F2R (Float radix2 (Z.pos m) e)) by (apply F2R_gt_0; cbn; lia). cbn in H. lra.
Qed.
Lemma mult_sgn s t a b : sgn s a -> sgn t b -> sgn (xorb s t) (Bmult mode_NE a b).
Proof.
  intros A B. destruct a as [x|x| |x m e Ha], b as [y|y| |y m' e' Hb]; cbn in A, B; subst; try exact I; try reflexivity.
  pose proof (Bmult_correct prec emax Hprec Hmax mode_NE (B754_finite s m e Ha) (B754_finite t m' e' Hb)) as M. revert M. case Rlt_bool_spec; intros Q M.
  - destruct M as (_ & F & S). destruct (Bmult mode_NE _ _) as [z|z| |z mz ez Hz]; try exact I; try (cbn in F; discriminate F). cbn. apply S. reflexivity.
  - apply overflow_sgn. exact M.
Qed.
Lemma plus_sgn s a b : sgn s a -> sgn s b -> sgn s (Bplus mode_NE a b).
Proof.
  intros A B. pose proof (sign_R _ _ A) as RA. pose proof (sign_R _ _ B) as RB. destruct a as [x|x| |x m e Ha], b as [y|y| |y m' e' Hb]; cbn in A, B; subst; try exact I; try reflexivity.
  - cbn. destruct (Bool.eqb x y); exact I.
  - cbn. destruct (Bool.eqb s s); reflexivity || exact I.
  - pose proof (Bplus_correct prec emax Hprec Hmax mode_NE (B754_finite s m e Ha) (B754_finite s m' e' Hb) eq_refl eq_refl) as M. revert M. case Rlt_bool_spec; intros Q M.
    + destruct M as (V & F & _). apply R_sign; [exact F|]. rewrite V. destruct s; [apply rnd_le_G|apply rnd_ge_G]; try apply generic_format_0; lra.
    + apply overflow_sgn. apply M.
Qed.
Lemma opp_sgn s a : sgn s a -> sgn (negb s) (Bopp a).
Proof. destruct a; cbn; intros H; subst; auto. Qed.
Definition sg (s : bool) (x : float) : Prop := sgn s (Prim2B x).
Lemma mul_sg s t x y : sg s x -> sg t y -> sg (xorb s t) (x * y)%float.
Proof. unfold sg. rewrite mul_equiv. apply mult_sgn. Qed.
Lemma add_sg s x y : sg s x -> sg s y -> sg s (x + y)%float.
Proof. unfold sg. rewrite add_equiv. apply plus_sgn. Qed.
Lemma opp_sg s x : sg s x -> sg (negb s) (- x)%float.
Proof. unfold sg. rewrite opp_equiv. apply opp_sgn. Qed.
Lemma minus_sgn s a b : sgn s a -> sgn (negb s) b -> sgn s (Bminus mode_NE a b).
Proof.
  intros A B. pose proof (sign_R _ _ A) as RA. pose proof (sign_R _ _ B) as RB. destruct a as [x|x| |x m e Ha], b as [y|y| |y m' e' Hb]; cbn in A, B; subst; try exact I; try (destruct s; reflexivity); try (cbn; apply negb_involutive).
  - cbn. destruct (Bool.eqb x (negb y)); exact I.
  - pose proof (Bminus_correct prec emax Hprec Hmax mode_NE (B754_finite s m e Ha) (B754_finite (negb s) m' e' Hb) eq_refl eq_refl) as M. revert M. case Rlt_bool_spec; intros Q M.
    + destruct M as (V & F & _). apply R_sign; [exact F|]. rewrite V. destruct s; cbn [negb] in *; [apply rnd_le_G|apply rnd_ge_G]; try apply generic_format_0; lra.
    + apply overflow_sgn. apply M.
Qed.
Lemma sub_sg s x y : sg s x -> sg (negb s) y -> sg s (x - y)%float.
Proof. unfold sg. rewrite sub_equiv. apply minus_sgn. Qed.
Lemma any_sg x : sg true x \/ sg false x.
Proof. unfold sg. destruct (Prim2B x) as [[]|[]| |[] m e H]; cbn; auto. Qed.
Lemma sq_sg s l c : sg s l -> sg s (l * c * c)%float.
Proof. intros A. destruct (any_sg c) as [C|C]; pose proof (mul_sg _ _ _ _ (mul_sg _ _ _ _ A C) C) as Q; destruct s; exact Q. Qed.

(** x / (x + y) times a non-negative finite Emax *)
Lemma share x y M : sg false x -> sg false y -> fin M -> 0 <= BR M -> PrimFloat.is_nan (x / (x + y) * M)%float = true \/ fin (x / (x + y) * M)%float /\ 0 <= BR (x / (x + y) * M)%float <= BR M.
Proof.
  intros A B FM PM. destruct (PrimFloat.is_nan (x / (x + y) * M)%float) eqn:N; [left; reflexivity|right].
  assert (BIG : 4 < bpow radix2 emax) by (change 4 with (bpow radix2 2); apply bpow_lt; reflexivity).
  assert (R : fin (x / (x + y))%float /\ 0 <= BR (x / (x + y))%float <= 1).
  { assert (ND : BinarySingleNaN.is_nan (Bdiv mode_NE (Prim2B x) (Prim2B (x + y)%float)) = false).
    { apply not_true_is_false. intros D. apply not_true_iff_false in N. apply N. rewrite is_nan_equiv, mul_equiv, div_equiv. destruct (Bdiv mode_NE _ _); try discriminate D. reflexivity. }
    pose proof (add_sg _ _ _ A B) as C. unfold sg in A, B, C. unfold fin, BR. rewrite div_equiv.
    destruct (Prim2B x) as [sx|sx| |sx m e Hx] eqn:Ex.
    - destruct (Prim2B (x + y)%float) as [sc|sc| |sc mc ec Hc]; cbn in *; try discriminate ND; split; auto; lra.
    - exfalso. rewrite add_equiv, Ex in ND, C. cbn in A. subst sx. destruct (Prim2B y) as [sy|sy| |sy my ey Hy]; cbn in B; subst; cbn in ND; discriminate ND.
    - discriminate ND.
    - destruct (Prim2B (x + y)%float) as [sc|sc| |sc mc ec Hc] eqn:Ec; try discriminate ND.
      + exfalso. assert (F : fin (x + y)%float) by (unfold fin; rewrite Ec; reflexivity). apply add_fin in F as (Fx & Fy & V). unfold BR in V. rewrite Ec, Ex in V. cbn [B2R] in V.
        assert (P : 0 < F2R (Float radix2 (Z.pos m) e)) by (apply F2R_gt_0; cbn; lia). cbn in A. subst sx. pose proof (sign_R false _ B) as PY. cbn in PY.
        assert (Q : F2R (Float radix2 (Z.pos m) e) <= 0). { rewrite V. apply rnd_ge_G; [|cbn; lra]. pose proof (G_BR x) as GX. unfold BR in GX. rewrite Ex in GX. exact GX. } lra.
      + split; cbn; [reflexivity|lra].
      + assert (F : fin (x + y)%float) by (unfold fin; rewrite Ec; reflexivity). apply add_fin in F as (Fx & Fy & V). unfold BR in V. rewrite Ec, Ex in V.
        cbn in A. subst sx. pose proof (sign_R false _ B) as PY. cbn in PY. set (X := B754_finite false m e Hx) in *. set (S := B754_finite sc mc ec Hc) in *.
        assert (P : 0 < B2R X) by (apply F2R_gt_0; cbn; lia).
        assert (Q : B2R X <= B2R S). { rewrite V. apply rnd_ge_G; [|lra]. apply generic_format_B2R. }
        assert (T : 0 <= B2R X / B2R S <= 1). { split; [apply Rmult_le_reg_r with (B2R S)|apply Rmult_le_reg_r with (B2R S)]; try lra; unfold Rdiv; rewrite Rmult_assoc, Rinv_l by lra; lra. }
        assert (T' : 0 <= rnd (B2R X / B2R S) <= 1) by (split; [apply rnd_ge_G; [apply generic_format_0|lra]|apply rnd_le_G; [exact G_1|lra]]).
        pose proof (Bdiv_correct prec emax Hprec Hmax mode_NE X S ltac:(lra)) as D. rewrite Rlt_bool_true in D by (rewrite Rabs_pos_eq; lra). destruct D as (D1 & D2 & _). split; [rewrite D2; reflexivity|rewrite D1; exact T']. }
  destruct R as [FR R]. assert (Q : 0 <= rnd (BR (x / (x + y))%float * BR M) <= BR M). { split; [apply rnd_ge_G; [apply generic_format_0|nra]|apply rnd_le_G; [apply G_BR|nra]]. }
  destruct (mul_BR _ M FR FM) as [V F]; [|split; [exact F|rewrite V; exact Q]].
  eapply Rle_lt_trans; [|apply (abs_B2R_lt_emax prec emax (Prim2B M))]. fold (BR M). rewrite !Rabs_pos_eq by lra. lra.
Qed.

Lemma unit_double_of x : fin x -> 0 <= BR x < 1 -> unit_double x.
Proof.
  intros F [H0 H1]. destruct zero_BR as [V0 F0]. destruct one_BR as [V1 F1]. split.
  - rewrite leb_equiv, Bleb_correct by assumption. apply Rle_bool_true. unfold BR in *. rewrite V0. exact H0.
  - apply (ltb_BR x 1 F F1). rewrite V1. exact H1.
Qed.
Lemma unit_mul x y : unit_double x -> unit_double y -> unit_double (x * y)%float.
Proof.
  intros X Y. destruct (unit_double_R _ X) as [FX BX]. destruct (unit_double_R _ Y) as [FY BY].
  assert (Q : 0 <= rnd (BR x * BR y) <= BR x). { split; [apply rnd_ge_G; [apply generic_format_0|nra]|apply rnd_le_G; [apply G_BR|nra]]. }
  assert (BIG : 4 < bpow radix2 emax) by (change 4 with (bpow radix2 2); apply bpow_lt; reflexivity).
  destruct (mul_BR x y FX FY) as [V F]; [rewrite Rabs_pos_eq; lra|]. apply unit_double_of; [exact F|rewrite V; lra].
Qed.
Lemma notpos_sg v : PrimFloat.ltb 0 v = false -> sg true v.
Proof. unfold sg. rewrite ltb_equiv. destruct (Prim2B v) as [[]|[]| |[] m e H]; cbn; auto; intros Q; vm_compute in Q; discriminate Q. Qed.
Lemma notneg_sg v : PrimFloat.ltb v 0 = false -> sg false v.
Proof. unfold sg. rewrite ltb_equiv. destruct (Prim2B v) as [[]|[]| |[] m e H]; cbn; auto; intros Q; vm_compute in Q; discriminate Q. Qed.

Section L.
  Variable lm : Libm.
  Local Notation NF := (NumF lm).
  Definition log_sign : Prop := forall x, unit_double x -> PrimFloat.ltb 0 (lm_log lm x) = false.
  Definition square_sign : Prop := forall x, PrimFloat.ltb (lm_pow lm x 2) 0 = false.
  Hypothesis LG : log_sign.
  Hypothesis SQ : square_sign.
  Lemma log_sg x : unit_double x -> sg true (lm_log lm x).
  Proof. intros U. apply notpos_sg, LG, U. Qed.
  Lemma maxwell_sg ds x rest : Forall unit_double ds -> @nb_maxwell _ NF ds = Ok (x, rest) -> sg false x /\ Forall unit_double rest.
  Proof.
    intros U H. unfold nb_maxwell in H. 
    unfold rbind at 1 in H. destruct ds as [|a ds]; [discriminate H|]. cbn [draw bind] in H. inversion U as [|? ? Ua U1]; subst. cbv zeta in H.
    unfold rbind at 1 in H. destruct ds as [|b ds]; [discriminate H|]. cbn [draw bind] in H. inversion U1 as [|? ? Ub U2]; subst.
    unfold rbind at 1 in H. destruct ds as [|c ds]; [discriminate H|]. cbn [draw bind] in H. inversion U2 as [|? ? Uc U3]; subst. injection H as <- <-. split; [|exact U3].
    apply (opp_sg true). apply add_sg; [apply log_sg, Ub|apply sq_sg, log_sg, Uc].
  Qed.
  Lemma y_sg n ds y rest : Forall unit_double ds -> @nb_y _ NF n ds = Ok (y, rest) -> sg false y.
  Proof.
    intros U H. unfold nb_y in H. destruct (n =? 3)%Z; [eapply maxwell_sg; eassumption|]. destruct (n =? 4)%Z; [|destruct (n =? 5)%Z].
    - do 3 (unfold rbind at 1 in H; destruct ds as [|? ds]; [discriminate H|]; cbn [draw bind] in H; apply Forall_cons_iff in U as [? U]). injection H as <- _.
      apply (opp_sg true), log_sg. repeat apply unit_mul; assumption.
    - do 6 (unfold rbind at 1 in H; destruct ds as [|? ds]; [discriminate H|]; cbn [draw bind] in H; apply Forall_cons_iff in U as [? U]). injection H as <- _.
      apply sub_sg; [apply (opp_sg true), log_sg; repeat apply unit_mul; assumption|]. apply (mul_sg true false); [apply log_sg; assumption|apply notneg_sg, SQ].
    - injection H as <- _. exact Logic.I.
  Qed.
  Lemma nb_energy d E ds mu Eo rest : fin (@nb_Emax _ NF d E) -> 0 <= BR (@nb_Emax _ NF d E) -> Forall unit_double ds -> @nb_sample _ NF d E ds = Ok ((mu, Eo), rest) ->
    PrimFloat.is_nan Eo = true \/ fin Eo /\ 0 <= BR Eo <= BR (@nb_Emax _ NF d E).
  Proof.
    intros FM PM U H. unfold nb_sample in H. cbv zeta in H. unfold rbind at 1 in H. apply bind_ok in H as ([x r1] & H1 & H). apply maxwell_sg in H1 as [X U1]; [|exact U].
    unfold rbind at 1 in H. apply bind_ok in H as ([y r2] & H2 & H). apply y_sg in H2; [|exact U1]. unfold rbind at 1 in H. apply bind_ok in H as ([v r3] & _ & H). unfold rret in H.
    assert (Q : (x / (x + y) * @nb_Emax _ NF d E)%float = Eo) by (apply (f_equal (fun r => match r with Ok (_, e, _) => e | _ => Eo end)) in H; exact H). rewrite <- Q. apply share; assumption.
  Qed.
End L.

(** a libm for the examples: log 0 = -infinity, -1/2 below 1 *)
Definition lm_n : Libm := {| lm_exp := fun x => x; lm_log := fun x => if PrimFloat.eqb x 0 then neg_infinity else (-0.5)%float; lm_pow := fun _ _ => 1%float; lm_sin := fun x => x; lm_cos := fun _ => 0.5%float; lm_sinh := fun x => x; lm_cosh := fun x => x; lm_erf := fun x => x; lm_pi := 3%float |}.
Lemma lm_n_log x : unit_double x -> PrimFloat.ltb 0 (lm_log lm_n x) = false.
Proof. intros _. cbn [lm_log lm_n]. destruct (PrimFloat.eqb x 0); vm_compute; reflexivity. Qed.
Lemma nb_nan : exists lm, (forall x, unit_double x -> PrimFloat.ltb 0 (lm_log lm x) = false) /\ lm_log lm 0 = neg_infinity /\ exists d mu Eo, @make_nbody _ (NumF lm) 3 4%float 3%float 1%float = Ok d /\
  Forall unit_double [0.5; 0; 0.5; 0.5; 0.5; 0.5; 0.25]%float /\ @nb_sample _ (NumF lm) d 2%float [0.5; 0; 0.5; 0.5; 0.5; 0.5; 0.25]%float = Ok ((mu, Eo), []) /\ PrimFloat.is_nan Eo = true.
Proof.
  exists lm_n. split; [exact lm_n_log|]. split; [reflexivity|]. do 3 eexists. split; [vm_compute; reflexivity|]. split; [repeat constructor|]. split; vm_compute; reflexivity.
Qed.
