(** * Facts pinning down constants, columns and layouts that other theorems take from the model *)
From Coq Require Import Reals Lra Lia List Permutation Sorted ZifyBool ZifyNat.
From Verif Require Import Base NumR L_Search L_SearchR M_Interp M_Tab1D M_Grid M_PC M_Ace M_Neutron M_Kin S_Neutron L_Grid L_Xs L_Ace L_Laws L_Neutron2 L_KinE.
Import ListNotations.
Local Open Scope R_scope.

(** ** the columns of the ESZ block are accepted whatever the heating numbers are *)
Lemma xs_column a i g vals h : (nxs a 2 = sizeZ vals)%Z -> (0 <= nxs a 2 < 2 ^ 31)%Z -> sizeZ (g_vals g) = sizeZ vals -> holds a i vals ->
  (h = false -> Forall (fun v => 0 <= v) vals) -> xs_of_ace a i g h = Ok (mkXs g vals 0 false).
Proof.
  intros N B S H P. unfold xs_of_ace. replace (wrap32 (nxs a 2)) with (sizeZ vals) by (unfold wrap32; rewrite Z.mod_small by lia; lia).
  rewrite holds_vec by exact H. cbn [bind]. unfold make_xs_ace. change (wrap32 (1 - 1)) with 0%Z.
  rewrite S, Z.sub_0_r. replace (wrap64 (sizeZ vals)) with (sizeZ vals) by (unfold wrap64; rewrite Z.mod_small by lia; reflexivity). rewrite Z.eqb_refl. cbn [negb].
  destruct h; cbn [negb andb]; [reflexivity|]. rewrite (proj2 (any_negative_R vals)); [reflexivity|]. specialize (P eq_refl). rewrite Forall_forall in P. unfold nonneg. auto.
Qed.
Lemma main_columns a g tot dis ela hea : (nxs a 2 = sizeZ (g_vals g))%Z -> (0 <= nxs a 2 < 2 ^ 29)%Z -> Forall (fun c => sizeZ c = sizeZ (g_vals g)) [tot; dis; ela; hea] ->
  Forall (Forall (fun v => 0 <= v)) [tot; dis; ela] -> jxs a 11 = 0%Z -> (0 < sizeZ (g_vals g))%Z ->
  holds a (jxs a 0 - 1) (g_vals g ++ tot ++ dis ++ ela ++ hea) ->
  exists pho, read_main_xs a g = Ok (mkXs g tot 0 false, mkXs g dis 0 false, mkXs g ela 0 false, mkXs g hea 0 false, pho).
Proof.
  intros N B S P J G H. inversion S as [|? ? S1 S']; subst. inversion S' as [|? ? S2 S'']; subst. inversion S'' as [|? ? S3 S3']; subst. inversion S3' as [|? ? S4 _]; subst. clear S S' S'' S3'.
  inversion P as [|? ? P1 P']; subst. inversion P' as [|? ? P2 P'']; subst. inversion P'' as [|? ? P3 _]; subst. clear P P' P''.
  apply holds_app in H as [_ H]. apply holds_app in H as [H1 H]. apply holds_app in H as [H2 H]. apply holds_app in H as [H3 H4]. rewrite S1 in H2, H3, H4. rewrite S2 in H3, H4. rewrite S3 in H4.
  unfold read_main_xs. fold (ESZ a) in *. replace (wrap32 (nxs a 2)) with (sizeZ (g_vals g)) by (unfold wrap32; rewrite Z.mod_small by lia; lia). rewrite J. cbn [Z.eqb].
  set (n := sizeZ (g_vals g)) in *. assert (W2 : wrap32 (2 * n) = (2 * n)%Z) by (unfold wrap32; apply Z.mod_small; lia).
  assert (W3 : wrap32 (3 * n) = (3 * n)%Z) by (unfold wrap32; apply Z.mod_small; lia). assert (W4 : wrap32 (4 * n) = (4 * n)%Z) by (unfold wrap32; apply Z.mod_small; lia). rewrite W2, W3, W4. change (ESZ a) with (jxs a 0 - 1)%Z.
  rewrite (xs_column a _ g tot false) by (try lia; auto; congruence). cbn [bind].
  assert (Q2 : holds a (jxs a 0 - 1 + 2 * n) dis) by (replace (jxs a 0 - 1 + 2 * n)%Z with (jxs a 0 - 1 + n + n)%Z by lia; exact H2).
  assert (Q3 : holds a (jxs a 0 - 1 + 3 * n) ela) by (replace (jxs a 0 - 1 + 3 * n)%Z with (jxs a 0 - 1 + n + n + n)%Z by lia; exact H3).
  assert (Q4 : holds a (jxs a 0 - 1 + 4 * n) hea) by (replace (jxs a 0 - 1 + 4 * n)%Z with (jxs a 0 - 1 + n + n + n + n)%Z by lia; exact H4).
  rewrite (xs_column a _ g dis false) by (try lia; auto; congruence). cbn [bind]. rewrite (xs_column a _ g ela false) by (try lia; auto; congruence). cbn [bind].
  rewrite (xs_column a _ g hea true) by (try lia; auto; congruence). cbn [bind].
  unfold make_xs_single. rnum. destruct (Rltb_spec 0 0) as [|_]; [lra|]. eexists. reflexivity.
Qed.

(** ** elastic: temperature in kelvin, kT in MeV; 1 eV is 11604.51812 K *)
Lemma K_to_MeV_value t : @K_to_MeV R NumR t = t / (1160451812 / 100000) / 1000000.
Proof. unfold K_to_MeV. rnum. field. Qed.

(** ** the default AngleDistribution *)
Lemma iso_draw x ds : 0 <= x < 1 -> al_sample (@isotropic R NumR) (x :: ds) = Ok (2 * x - 1, ds).
Proof. intros H. unfold isotropic. cbn [al_sample]. unfold rbind, draw, rret, clamp_mu. rnum. assert (Rabs (2 * x - 1) <= 1) by (apply Rabs_le; lra). destruct (Rltb_spec 1 (Rabs (2 * x - 1))); [lra|reflexivity]. Qed.
Lemma default_dist (E : R) : ad_energy (@adist_default R NumR) = [/ 100000000000; 200] /\ (forall mu, -1 <= mu <= 1 -> adist_pdf adist_default E mu = Ok (1 / 2)) /\
  (forall x y ds, 0 <= x < 1 -> 0 <= y < 1 -> exists mu, In mu [2 * x - 1; 2 * y - 1] /\ exists ds', adist_sample adist_default E (x :: y :: ds) = Ok (mu, ds') /\ (ds' = ds \/ ds' = y :: ds)).
Proof.
  split; [unfold adist_default; cbn [ad_energy]; rnum; f_equal; lra|].
  assert (A : @adist_default R NumR = mkADist [/ 100000000000; 200] [isotropic; isotropic]) by (unfold adist_default; rnum; repeat f_equal; lra).
  assert (L : exists k, lower_bound [/ 100000000000; 200] E = Ok k /\ (k = 0 \/ k = 1 \/ k = 2)%Z).
  { destruct (Rle_dec E (/ 100000000000)); [exists 0%Z|destruct (Rle_dec E 200); [exists 1%Z|exists 2%Z]]; (split; [|auto]); unfold lower_bound; cbn; change (Pos.to_nat 1) with 1%nat; cbn; rnum; rdec; cbn; rdec; reflexivity. }
  destruct L as (k & L & K). rewrite A. split.
  - intros mu Hmu. assert (Pm : al_pdf (@isotropic R NumR) mu = Ok (1 / 2)). { unfold isotropic. cbn [al_pdf]. rnum. rdec. reflexivity. }
    unfold adist_pdf. cbn [ad_energy ad_laws]. rewrite L. cbn [bind]. destruct K as [->|[->| ->]]; [exact Pm| |exact Pm].
    change ((1 =? 0)%Z) with false. change (Z.eqb 1 (sizeZ [/ 100000000000; 200])) with false. cbn match. change (1 - 1)%Z with 0%Z. change (0 + 1)%Z with 1%Z.
    change (atZ [/ 100000000000; 200] 0) with (Ok (/ 100000000000)). change (atZ [/ 100000000000; 200] 1) with (Ok 200). change (atZ [isotropic; isotropic] 0) with (Ok (@isotropic R NumR)). change (atZ [isotropic; isotropic] 1) with (Ok (@isotropic R NumR)).
    cbn [bind]. rewrite Pm. cbn [bind]. rnum. f_equal. lra.
  - intros x y ds Hx Hy. unfold adist_sample. cbn [ad_energy ad_laws]. unfold rbind, rlift. rewrite L. cbn [bind]. destruct K as [->|[->| ->]].
    + exists (2 * x - 1). split; [left; reflexivity|]. exists (y :: ds). split; [exact (iso_draw x (y :: ds) Hx)|right; reflexivity].
    + exists (2 * y - 1). split; [right; left; reflexivity|]. exists ds. split; [|left; reflexivity].
      change ((1 =? 0)%Z) with false. change (Z.eqb 1 (sizeZ [/ 100000000000; 200])) with false. cbn match. change (1 - 1)%Z with 0%Z. change (0 + 1)%Z with 1%Z.
      change (atZ [/ 100000000000; 200] 0) with (Ok (/ 100000000000)). change (atZ [/ 100000000000; 200] 1) with (Ok 200). cbn [bind draw].
      match goal with |- context [atZ _ (if ?b then 0%Z else 1%Z)] => replace (atZ [isotropic; isotropic] (if b then 0%Z else 1%Z)) with (Ok (@isotropic R NumR)) by (destruct b; reflexivity) end. cbn [bind].
      rewrite (iso_draw y ds Hy). cbn [bind]. unfold rret, clamp_mu. rnum. assert (Rabs (2 * y - 1) <= 1) by (apply Rabs_le; lra). destruct (Rltb_spec 1 (Rabs (2 * y - 1))); [lra|reflexivity].
    + exists (2 * x - 1). split; [left; reflexivity|]. exists (y :: ds). split; [exact (iso_draw x (y :: ds) Hx)|right; reflexivity].
Qed.
