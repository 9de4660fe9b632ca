(** * Binary64: a target at absolute zero makes the free-gas sampler loop for ever.
    Uses the standard library's axioms add_spec, sub_spec, mul_spec, div_spec, sqrt_spec, ltb_spec (Coq.Floats.FloatAxioms). *)
From Verif Require Import Base NumF L_Search M_Kin.
From Coq Require Import FloatAxioms SpecFloat Lia List.
Import ListNotations.
Local Open Scope float_scope.

Definition is_inf (f : float) : Prop := Prim2SF f = S754_infinity false.
Definition inf_or_nan (f : float) : Prop := Prim2SF f = S754_infinity false \/ Prim2SF f = S754_nan.

Lemma inf_any a f : inf_or_nan a -> inf_or_nan (a + f).
Proof.
  intros [H|H]; unfold inf_or_nan; rewrite add_spec, H; [|right; reflexivity].
  destruct (Prim2SF f) as [s|[|]| |s m e]; cbn; tauto.
Qed.
Lemma inf_any_r a f : inf_or_nan a -> inf_or_nan (f + a).
Proof.
  intros [H|H]; unfold inf_or_nan; rewrite add_spec, H; destruct (Prim2SF f) as [s|[|]| |s m e]; cbn; tauto.
Qed.
Lemma inf_sub a f : inf_or_nan a -> inf_or_nan (a - f).
Proof.
  intros [H|H]; unfold inf_or_nan; rewrite sub_spec, H; [|right; reflexivity].
  destruct (Prim2SF f) as [s|[|]| |s m e]; cbn; tauto.
Qed.
Lemma inf_sqrt a : inf_or_nan a -> inf_or_nan (PrimFloat.sqrt a).
Proof. intros [H|H]; unfold inf_or_nan; rewrite sqrt_spec, H; cbn; tauto. Qed.
Lemma inf_div_nan a b : inf_or_nan a -> inf_or_nan b -> Prim2SF (a / b) = S754_nan.
Proof. intros [H|H] [H'|H']; rewrite div_spec, H, H'; reflexivity. Qed.
Lemma inf_square a : is_inf a -> is_inf (a * a).
Proof. unfold is_inf. intros H. rewrite mul_spec, H. reflexivity. Qed.
Lemma ltb_nan a b : Prim2SF b = S754_nan -> (a <? b) = false.
Proof. intros H. rewrite ltb_spec, H. destruct (Prim2SF a); reflexivity. Qed.
Lemma pos_div_zero a : (0 <? a) = true -> is_inf (a / 0).
Proof.
  rewrite ltb_spec. unfold is_inf. rewrite div_spec. change (Prim2SF 0) with (S754_zero false).
  destruct (Prim2SF a) as [s|[|]| |[|] m e]; cbn; intros H; congruence || reflexivity.
Qed.

Lemma svt_loop_inf lm y : is_inf y -> forall fuel ds, @svt_loop float (NumF lm) fuel y ds = NoDraw.
Proof.
  intros Hy. assert (NA : forall x2 c r, (r <? PrimFloat.sqrt (y * y + x2 - c) / (PrimFloat.sqrt x2 + y)) = false).
  { intros x2 c r. apply ltb_nan, inf_div_nan.
    - apply inf_sqrt, inf_sub, inf_any. left. apply inf_square. exact Hy.
    - apply inf_any_r. left. exact Hy. }
  induction fuel as [|f IH]; intros ds; [reflexivity|]. cbn [svt_loop].
  destruct ds as [|xi d1]; [reflexivity|]. unfold rbind at 1. cbn [draw bind].
  destruct (nltb xi _).
  - destruct d1 as [|a [|b [|m [|r d1]]]]; try reflexivity. cbn [rbind draw bind rret nltb ndiv nsqrt nsub nadd nmul NumF]. rewrite NA. apply IH.
  - destruct d1 as [|a [|b [|d [|m [|r d1]]]]]; try reflexivity. cbn [rbind draw bind rret nltb ndiv nsqrt nsub nadd nmul NumF]. rewrite NA. apply IH.
Qed.
Lemma svt_zero_kelvin lm Ein awr : (0 <? awr * Ein) = true -> forall ds, @svt_sample float (NumF lm) Ein 0 awr ds = NoDraw.
Proof.
  intros H ds. unfold svt_sample. unfold rbind at 1. rewrite svt_loop_inf; [reflexivity|].
  cbn [nsqrt ndiv nmul NumF]. unfold is_inf. rewrite sqrt_spec. rewrite (pos_div_zero _ H). reflexivity.
Qed.
Lemma elastic_zero_kelvin lm ang awr tar e Ein : (0 <? awr * Ein) = true ->
  @make_elastic float (NumF lm) (Some (@svt_sample float (NumF lm))) ang awr 0 false tar = Ok e ->
  forall ds, @elastic_sample float (NumF lm) e Ein ds = NoDraw.
Proof.
  intros H HM ds. unfold make_elastic in HM.
  destruct (nleb awr _); [discriminate|]. destruct (nltb (K_to_MeV _) _); [discriminate|]. destruct (nltb tar _); [discriminate|].
  injection HM as <-. unfold elastic_sample. cbn [e_use_tar andb e_brd e_kT e_awr]. unfold rbind at 1.
  change (@K_to_MeV float (NumF lm) 0) with 0. rewrite svt_zero_kelvin by exact H. reflexivity.
Qed.
Lemma elastic_zero_kelvin_built lm ang : exists e, @make_elastic float (NumF lm) (Some (@svt_sample float (NumF lm))) ang 238 0 false 400 = Ok e.
Proof. eexists. reflexivity. Qed.
