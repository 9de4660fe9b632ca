(** * Binary64: energies sampled from equiprobable bins *)
From Coq Require Import Reals Lra Lia ZArith Bool List ZifyBool ZifyNat.
From Flocq Require Import Core Plus_error IEEE754.BinarySingleNaN.
From Flocq Require Import IEEE754.PrimFloat.
From Coq Require Import Floats.
From Verif Require Import Base NumF S_PickF S_BinsF M_Ace M_PC M_Spectra M_Laws L_Search L_OrderF L_PC L_PickF L_LinF L_XsF L_CosF L_CosF2 L_CosF3 L_CosE L_CosG.
Import ListNotations.
Local Open Scope R_scope.
Local Notation rnd := (round radix2 (SpecFloat.fexp prec emax) (round_mode mode_NE)).
Local Notation fx := (SpecFloat.fexp prec emax).
Local Notation G := (generic_format radix2 fx).
Local Notation u := (bpow radix2 (-53)).
Local Instance fx_valid3 : Valid_exp fx := fexp_correct prec emax Hprec.

(** a double below 1 is at most 1 - 2^-53 *)
Lemma below_one x : G x -> x < 1 -> x <= 1 - u.
Proof.
  intros Gx H. change 1 with (bpow radix2 0) in *. assert (Q : x <= Ulp.pred radix2 fx (bpow radix2 0)). { apply pred_ge_gt; auto with typeclass_instances. exact G_1. }
  rewrite pred_bpow in Q by auto with typeclass_instances. rewrite fx_le in Q by lia. exact Q.
Qed.
(** the rounded difference times a unit double never exceeds the exact difference *)
Lemma scaled_diff a b xi : G a -> G b -> 0 <= a <= b -> G xi -> 0 <= xi < 1 -> 0 <= rnd (rnd (b - a) * xi) <= b - a.
Proof.
  intros Ga Gb H Gx X. pose proof (below_one _ Gx (proj2 X)) as X1. assert (Hu : 0 < u) by apply bpow_gt_0.
  assert (D0 : 0 <= rnd (b - a)) by (apply rnd_ge_G; [apply generic_format_0|lra]).
  split; [apply rnd_ge_G; [apply generic_format_0|nra]|].
  destruct (Rle_lt_dec (b - a) (bpow radix2 (-1021))) as [Sm|Bg].
  - assert (Ge : G (b - a)). { rewrite fx_FLT in *. apply FLT_format_plus_small; [reflexivity|exact Gb|apply G_opp in Ga; rewrite fx_FLT in Ga; exact Ga|]. change (b + - a) with (b - a). rewrite Rabs_pos_eq by lra. exact Sm. }
    rewrite (rnd_G _ Ge). apply rnd_le_G; [exact Ge|nra].
  - set (d := rnd (b - a)) in *. assert (Gd : G d) by (apply generic_format_round; auto with typeclass_instances).
    assert (Dl : bpow radix2 (-1021) <= d). { apply rnd_ge_G; [apply generic_format_bpow; rewrite fx_le; lia|lra]. }
    pose proof (bpow_gt_0 radix2 (-1021)) as P.
    assert (Pd : Ulp.pred radix2 fx d <= b - a).
    { apply Rnot_lt_le. intros C. assert (d <= Ulp.pred radix2 fx d). { unfold d at 1. apply rnd_le_G; [apply generic_format_pred; auto with typeclass_instances|lra]. }
      pose proof (pred_lt_id radix2 fx d ltac:(lra)). lra. }
    eapply Rle_trans; [|exact Pd].
    destruct (mag radix2 d) as [e' He]. specialize (He ltac:(lra)). rewrite Rabs_pos_eq in He by lra. set (e := (e' - 1)%Z) in *. assert (E1 : (e' = e + 1)%Z) by (subst e; lia). rewrite E1 in He.
    assert (Le : (-1021 <= e)%Z). { assert (-1021 < e + 1)%Z; [|lia]. apply (lt_bpow radix2). lra. }
    assert (M : mag radix2 d = (e + 1)%Z :> Z) by (apply mag_unique; rewrite Rabs_pos_eq by lra; replace (e + 1 - 1)%Z with e by lia; exact He).
    assert (V : d * xi <= d - d * u) by nra.
    destruct (Req_dec d (bpow radix2 e)) as [Q|N].
    + apply rnd_le_G; [apply generic_format_pred; auto with typeclass_instances|]. rewrite pred_eq_pos by lra. unfold Ulp.pred_pos. rewrite M. replace (e + 1 - 1)%Z with e by lia. rewrite Req_bool_true by exact Q. rewrite fx_le by lia.
      replace (bpow radix2 (e - 53)) with (d * u); [exact V|]. rewrite Q, <- bpow_plus. reflexivity.
    + apply round_N_le_midp; [auto with typeclass_instances|apply generic_format_pred; auto with typeclass_instances|]. rewrite succ_pred by (auto with typeclass_instances; exact Gd).
      rewrite pred_eq_pos by lra. unfold Ulp.pred_pos. rewrite M. replace (e + 1 - 1)%Z with e by lia. rewrite Req_bool_false by exact N. rewrite ulp_neq_0 by lra. unfold cexp. rewrite M, fx_le by lia.
      assert (bpow radix2 (e + 1 - 53) = 2 * (bpow radix2 e * u)). { change 2 with (bpow radix2 1). rewrite <- !bpow_plus. f_equal. lia. }
      assert (bpow radix2 e < d) by lra. nra.
Qed.
Lemma between lo hi xi : fin lo -> fin hi -> 0 <= BR lo <= BR hi -> unit_double xi -> fin ((hi - lo) * xi + lo)%float /\ BR lo <= BR ((hi - lo) * xi + lo)%float <= BR hi.
Proof.
  intros Fl Fh B U. destruct (unit_double_R xi U) as [Fx X].
  assert (HB : forall x t, fin x -> Rabs t <= Rabs (BR x) -> Rabs t < bpow radix2 emax).
  { intros x t F H. eapply Rle_lt_trans; [exact H|]. unfold BR. apply abs_B2R_lt_emax. }
  assert (HB' : forall t, 0 <= t <= BR hi -> Rabs t < bpow radix2 emax). { intros t H. apply (HB hi _ Fh). rewrite !Rabs_pos_eq by lra. lra. }
  pose proof (G_BR lo) as Gl. pose proof (G_BR hi) as Gh. pose proof (G_BR xi) as Gx.
  assert (D : 0 <= rnd (BR hi - BR lo) <= BR hi). { split; [apply rnd_ge_G; [apply generic_format_0|lra]|apply rnd_le_G; [exact Gh|lra]]. }
  destruct (sub_BR hi lo Fh Fl (HB' _ D)) as [Vd Fd]. pose proof (scaled_diff _ _ _ Gl Gh B Gx X) as S. rewrite <- Vd in S.
  destruct (mul_BR (hi - lo)%float xi Fd Fx) as [Vm Fm]; [apply HB'; lra|]. rewrite <- Vm in S.
  assert (S2 : BR lo <= rnd (BR ((hi - lo) * xi)%float + BR lo) <= BR hi). { split; [apply rnd_ge_G; [exact Gl|lra]|apply rnd_le_G; [exact Gh|lra]]. }
  destruct (add_BR _ lo Fm Fl) as [Va Fa]; [apply HB'; lra|]. split; [exact Fa|rewrite Va; exact S2].
Qed.

Section L.
  Variable lm : Libm.
  Local Notation NF := (NumF lm).
  Lemma sample_bin (b : list float) xi1 xi2 v : @is_sorted _ NF b = true -> energies_ok b -> unit_double xi2 -> @sample_bins _ NF xi1 xi2 b = Ok v -> in_some_bin b v.
  Proof.
    intros S E U H. unfold sample_bins in H. apply bind_ok in H as (k & _ & H). apply bind_ok in H as (hi & Hh & H). apply bind_ok in H as (lo & Hl & H). injection H as <-.
    assert (F : Forall fin b) by (eapply Forall_impl; [|exact E]; cbn; tauto). unfold energies_ok in E. rewrite Forall_forall in E. destruct (E _ (atZ_In _ _ _ Hl)) as [Fl Pl]. destruct (E _ (atZ_In _ _ _ Hh)) as [Fh _].
    pose proof (mono lm _ _ _ _ _ F S (ltac:(lia) : (k <= k + 1)%Z) Hl Hh) as L. exists k, lo, hi. split; [exact Hl|]. split; [exact Hh|]. exact (between lo hi xi2 Fl Fh (conj Pl L) U).
  Qed.
  Definition table_ok (d : ebins float) : Prop := forall b, In b (eb_sets d) -> @is_sorted _ NF b = true /\ energies_ok b.
  Lemma eb_bin d E ds v rest : table_ok d -> Forall unit_double ds -> @eb_sample _ NF d E ds = Ok (v, rest) -> exists b, In b (eb_sets d) /\ in_some_bin b v.
  Proof.
    intros T U H.
    assert (GO : forall b ds, In b (eb_sets d) -> Forall unit_double ds -> (rlet! xi1 := draw in rlet! xi2 := draw in rlift (@sample_bins _ NF xi1 xi2 b)) ds = Ok (v, rest) -> exists b, In b (eb_sets d) /\ in_some_bin b v).
    { clear - T. intros b ds I U H. unfold rbind at 1 in H. destruct ds as [|x1 ds]; [discriminate H|]. cbn [draw bind] in H. unfold rbind at 1 in H. destruct ds as [|x2 ds]; [discriminate H|]. cbn [draw bind] in H.
      unfold rlift in H. apply bind_ok in H as (w & Hw & H). injection H as <- _. exists b. split; [exact I|]. destruct (T _ I) as [S E]. eapply sample_bin; try eassumption. inversion U as [|? ? _ U']; subst. now inversion U'. }
    unfold eb_sample in H. cbv zeta in H. unfold rbind at 1, rlift at 1 in H. apply bind_ok in H as (p & H1 & H). apply bind_ok in H1 as (k & _ & H1). injection H1 as <-.
    destruct (k =? 0)%Z; [|destruct (k =? _)%Z].
    - unfold rbind at 1, rlift at 1 in H. apply bind_ok in H as (p & H1 & H). apply bind_ok in H1 as (b & Hb & H1). injection H1 as <-. eapply GO; [eapply atZ_In; exact Hb|exact U|exact H].
    - unfold rbind at 1, rlift at 1 in H. apply bind_ok in H as (p & H1 & H). apply bind_ok in H1 as (b & Hb & H1). injection H1 as <-. eapply GO; [eapply atZ_In; exact Hb|exact U|exact H].
    - unfold rbind at 1, rlift at 1 in H. apply bind_ok in H as (p & H1 & H). apply bind_ok in H1 as (e1 & _ & H1). injection H1 as <-. unfold rbind at 1, rlift at 1 in H. apply bind_ok in H as (p & H1 & H). apply bind_ok in H1 as (e2 & _ & H1). injection H1 as <-.
      unfold rbind at 1 in H. destruct ds as [|x ds]; [discriminate H|]. cbn [draw bind] in H. unfold rbind at 1, rlift at 1 in H. apply bind_ok in H as (p & H1 & H). apply bind_ok in H1 as (b & Hb & H1). injection H1 as <-.
      apply (GO b ds); [eapply atZ_In; exact Hb|now inversion U|exact H].
  Qed.
  Lemma make_ebins_ok energy sets d : @make_ebins _ NF energy sets = Ok d -> (forall b, In b sets -> energies_ok b) -> table_ok d.
  Proof.
    intros H E b I. unfold make_ebins in H. apply bind_ok in H as (? & _ & H). apply bind_ok in H as (? & _ & H). apply bind_ok in H as (? & S & H). injection H as <-. cbn [eb_sets] in I. apply guard_ok in S. rewrite forallb_forall in S. split; [apply S, I|apply E, I].
  Qed.
  Lemma ge_bin d E ds v rest : @is_sorted _ NF (ge_bounds d) = true -> energies_ok (ge_bounds d) -> Forall unit_double ds -> @ge_sample _ NF d E ds = Ok (v, rest) ->
    exists t x, ge_temp d E = Ok t /\ in_some_bin (ge_bounds d) x /\ v = (x * t)%float.
  Proof.
    intros S T U H. unfold ge_sample in H. unfold rbind at 1, rlift at 1 in H. apply bind_ok in H as (p & H1 & H). apply bind_ok in H1 as (t & Ht & H1). injection H1 as <-.
    unfold rbind at 1 in H. destruct ds as [|x1 ds]; [discriminate H|]. cbn [draw bind] in H. unfold rbind at 1, rlift at 1 in H. apply bind_ok in H as (p & H1 & H). apply bind_ok in H1 as (k & HK & H1). injection H1 as <-.
    unfold rbind at 1 in H. destruct ds as [|x2 ds]; [discriminate H|]. cbn [draw bind] in H. unfold rbind at 1, rlift at 1 in H. apply bind_ok in H as (p & H1 & H). apply bind_ok in H1 as (hi & Hh & H1). injection H1 as <-.
    unfold rbind at 1, rlift at 1 in H. apply bind_ok in H as (p & H1 & H). apply bind_ok in H1 as (lo & Hl & H1). injection H1 as <-. injection H as <- _.
    exists t, ((hi - lo) * x2 + lo)%float. split; [exact Ht|]. split; [|reflexivity]. eapply (sample_bin _ x1 x2); try eassumption; [inversion U as [|? ? _ U']; subst; now inversion U'|].
    unfold sample_bins. rewrite HK. cbn [bind]. rewrite Hh. cbn [bind]. rewrite Hl. reflexivity.
  Qed.
  Lemma ebins_file a i d : @M_Laws.ebins_of_ace _ NF a i = Ok d -> (forall k v, xss a k = Ok v -> fin v /\ 0 <= BR v) -> table_ok d.
  Proof.
    intros H A b I. unfold M_Laws.ebins_of_ace in H. apply bind_ok in H as ([[k NE] en] & _ & H). apply bind_ok in H as (? & _ & H). apply bind_ok in H as (NET & _ & H). apply bind_ok in H as (sets & HS & H). apply bind_ok in H as (? & S & H). injection H as <-.
    cbn [eb_sets] in I. apply guard_ok in S. rewrite forallb_forall in S. split; [apply S, I|]. destruct (L_CosG.mapR_in _ _ _ HS _ I) as (j & _ & V).
    apply Forall_forall. intros w X. apply In_atZ in X as (q & Q). apply (A (k + 1 + j * NET + q)%Z). eapply slice_at; eassumption.
  Qed.
End L.
