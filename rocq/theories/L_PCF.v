(** * binary64: sampled cosines of tabulated angular laws *)
From Verif Require Import Base NumF L_OrderF L_Search M_Interp M_PC L_PC.
From Coq Require Import FloatAxioms SpecFloat.
Local Open Scope float_scope.

Definition cosF (x : float) : Prop := PrimFloat.leb (-1) x = true /\ PrimFloat.leb x 1 = true.

Lemma leb_key x y : notNaN x -> notNaN y -> PrimFloat.leb x y = negb (klt (key (Prim2SF y)) (key (Prim2SF x))).
Proof.
  intros Hx Hy. rewrite leb_spec. unfold SFleb. rewrite SFcompare_key by assumption.
  destruct (klt (key (Prim2SF x)) _) eqn:E; [rewrite klt_asym by assumption; reflexivity|]. destruct (klt (key (Prim2SF y)) _); reflexivity.
Qed.
Lemma one_notNaN : notNaN 1. Proof. intros H. discriminate H. Qed.
Lemma m1_notNaN : notNaN (-1). Proof. intros H. discriminate H. Qed.
Lemma abs_le_1 x : notNaN x -> PrimFloat.ltb 1 (PrimFloat.abs x) = false -> cosF x.
Proof.
  intros Hx H. assert (Ha : notNaN (PrimFloat.abs x)). { unfold notNaN in *. rewrite abs_spec. destruct (Prim2SF x); cbn; congruence. }
  rewrite ltb_key in H by (try exact one_notNaN; exact Ha). rewrite abs_spec in H. split.
  - rewrite leb_key by (try exact m1_notNaN; exact Hx). change (key (Prim2SF (-1))) with (-1, 52, - 4503599627370496)%Z.
    change (key (Prim2SF 1)) with (1, -52, 4503599627370496)%Z in H.
    unfold notNaN in Hx. destruct (Prim2SF x) as [s|s| |s m e]; [| |congruence|]; try destruct s; cbn [key SFabs klt] in *; lia.
  - rewrite leb_key by (try exact one_notNaN; exact Hx). change (key (Prim2SF 1)) with (1, -52, 4503599627370496)%Z in *.
    unfold notNaN in Hx. destruct (Prim2SF x) as [s|s| |s m e]; [| |congruence|]; try destruct s; cbn [key SFabs klt] in *; lia.
Qed.
Lemma is_nan_dec x : PrimFloat.is_nan x = true \/ notNaN x.
Proof. destruct (PrimFloat.is_nan x) eqn:E; [left; reflexivity|right; apply notNaN_is_nan, E]. Qed.
Lemma clamp_muF lm x : PrimFloat.is_nan (@clamp_mu float (NumF lm) x) = true \/ cosF (@clamp_mu float (NumF lm) x).
Proof.
  unfold clamp_mu. change (@nltb float (NumF lm)) with PrimFloat.ltb. change (@nabs float (NumF lm) x) with (PrimFloat.abs x).
  change (@nofZ float (NumF lm) 1) with 1. change (@nopp float (NumF lm) 1) with (-1).
  destruct (PrimFloat.ltb 1 (PrimFloat.abs x)) eqn:E.
  - right. destruct (@nsignbit float (NumF lm) x); split; reflexivity.
  - destruct (is_nan_dec x) as [H|H]; [left; exact H|]. right. apply abs_le_1; assumption.
Qed.
Lemma angle_tableF lm t ds mu ds' : al_sample (@angle_table float (NumF lm) t) ds = Ok (mu, ds') -> PrimFloat.is_nan mu = true \/ cosF mu.
Proof.
  intros H. cbn in H. apply rbind_ok in H as (xi & ds1 & _ & H). apply rbind_ok in H as (m & ds2 & _ & H). apply rret_ok in H as [<- _]. apply clamp_muF.
Qed.
Lemma isotropicF lm ds mu ds' : al_sample (@isotropic float (NumF lm)) ds = Ok (mu, ds') -> PrimFloat.is_nan mu = true \/ cosF mu.
Proof. intros H. cbn in H. apply rbind_ok in H as (xi & ds1 & _ & H). apply rret_ok in H as [<- _]. apply clamp_muF. Qed.
Lemma angle_binsF lm b ds mu ds' : al_sample (@angle_bins float (NumF lm) b) ds = Ok (mu, ds') -> PrimFloat.is_nan mu = true \/ cosF mu.
Proof.
  intros H. cbn in H. apply rbind_ok in H as (xi & ds1 & _ & H). apply rlift_ok in H as [H _]. unfold bins_sample in H.
  apply bind_ok in H as (bin & _ & H). apply bind_ok in H as (lo & _ & H). injection H as <-. apply clamp_muF.
Qed.
(** NaN: two equal cosines with different densities and a cdf step between them *)
Definition nan_values := [-1; 0; 0; 1].
Definition nan_pdf := [0.25; 0.25; 0.75; 0.75].
Definition nan_cdf := [0; 0.25; 0.5; 1].
Lemma nan_cosine lm : exists t, @make_pc float (NumF lm) nan_values nan_pdf nan_cdf LinLin = Ok t /\ @make_angle_table float (NumF lm) t = Ok t /\
  al_sample (@angle_table float (NumF lm) t) [0.375] = Ok (nan, []).
Proof. eexists. split; [vm_compute; reflexivity|]. split; vm_compute; reflexivity. Qed.

(** the memory safety of sampling, in binary64 *)
Lemma sample_safeF lm values pdf cdf i t xi c0 : @make_pc float (NumF lm) values pdf cdf i = Ok t -> Forall notNaN cdf -> notNaN xi -> PrimFloat.ltb xi 1 = true ->
  atZ (pc_cdf t) 0 = Ok c0 ->
  (PrimFloat.ltb xi c0 = false /\ exists v, @pc_sample float (NumF lm) t xi = Ok v) \/ (PrimFloat.ltb xi c0 = true /\ @pc_sample float (NumF lm) t xi = UB).
Proof. exact (sample_safe notNaN (NumF_order lm) one_notNaN values pdf cdf i t xi c0). Qed.
Lemma pdf_safeF lm values pdf cdf i t v : @make_pc float (NumF lm) values pdf cdf i = Ok t -> Forall notNaN values -> notNaN v -> exists p, @pc_pdf float (NumF lm) t v = Ok p.
Proof. exact (pdf_safe notNaN (NumF_order lm) values pdf cdf i t v). Qed.
Lemma sample_ubF lm : exists t, @make_pc float (NumF lm) [0; 1] [1; 1] [0.5; 1] LinLin = Ok t /\ @pc_sample float (NumF lm) t 0.25 = UB.
Proof. eexists. split; [vm_compute; reflexivity|]. vm_compute. reflexivity. Qed.
