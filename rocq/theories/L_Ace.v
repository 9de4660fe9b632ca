(** * Reading ACE blocks (exact arithmetic) *)
From Verif Require Import Base NumR L_Search L_SearchR M_Interp M_Tab1D M_Func M_Grid M_Ace M_Neutron S_Neutron L_Grid L_Xs L_Neutron.
From Coq Require Import ZifyBool ZifyNat.
Local Open Scope R_scope.

Lemma Int_part_IZR z : Int_part (IZR z) = z.
Proof. apply Int_part_unique. lra. Qed.
Lemma trunc_u32_IZR z : u32 z -> @trunc_u32 R NumR (IZR z) = Ok z.
Proof.
  intros H. unfold trunc_u32. cbn [nfloor NumR]. rewrite Int_part_IZR. unfold u32 in H.
  replace (0 <=? z)%Z with true by lia. replace (z <? 2 ^ 32)%Z with true by lia. reflexivity.
Qed.
Lemma trunc_i32_IZR z : (- 2 ^ 31 <= z < 2 ^ 31)%Z -> @trunc_i32 R NumR (IZR z) = Ok z.
Proof.
  intros H. unfold trunc_i32. change (@nleb R NumR) with Rleb. change (@nofZ R NumR 0) with 0. cbn [nfloor nopp NumR].
  destruct (Rleb_spec 0 (IZR z)) as [L|L]; cbn [bind].
  - rewrite Int_part_IZR. cbn [bind]. replace ((_ <=? z) && _)%bool%Z with true by lia. reflexivity.
  - rewrite <- opp_IZR, Int_part_IZR. cbn [bind]. rewrite Z.opp_involutive. replace ((_ <=? z) && _)%bool%Z with true by lia. reflexivity.
Qed.

Section Holds.
  Variable a : ace R.
  Lemma holds_app i b1 b2 : holds a i (b1 ++ b2) -> holds a i b1 /\ holds a (i + sizeZ b1) b2.
  Proof.
    intros (pre & post & E & S). split.
    - exists pre, (b2 ++ post). split; [rewrite E, <- !app_assoc; reflexivity|exact S].
    - exists (pre ++ b1), post. split; [rewrite E, <- !app_assoc; reflexivity|]. rewrite sizeZ_app. lia.
  Qed.
  Lemma holds_cons i x b : holds a i (x :: b) -> xss a i = Ok x /\ holds a (i + 1) b.
  Proof.
    intros H. destruct (holds_app i [x] b H) as [(pre & post & E & S) H2]. split; [|exact H2].
    unfold xss. rewrite E. rewrite atZ_app_r by lia. replace (i - sizeZ pre)%Z with 0%Z by lia. reflexivity.
  Qed.
  Lemma holds_vec i b : holds a i b -> xss_vec a i (sizeZ b) = Ok b.
  Proof.
    intros (pre & post & E & S). unfold xss_vec, slice. rewrite E, !sizeZ_app.
    pose proof (sizeZ_nonneg pre). pose proof (sizeZ_nonneg b). pose proof (sizeZ_nonneg post).
    replace ((0 <=? i) && (i <=? i + sizeZ b) && (i + sizeZ b <=? sizeZ pre + (sizeZ b + sizeZ post)))%Z%bool with true by lia.
    f_equal. unfold sizeZ in S. replace (Z.to_nat i) with (length pre) by lia. rewrite skipn_app, skipn_all, Nat.sub_diag. cbn [app skipn].
    replace (Z.to_nat (i + sizeZ b - i)) with (length b) by (unfold sizeZ; lia). rewrite firstn_app, firstn_all, Nat.sub_diag. cbn. apply app_nil_r.
  Qed.
  Lemma holds_u32 i z b : u32 z -> holds a i (IZR z :: b) -> xss_u32 a i = Ok z.
  Proof. intros U H. apply holds_cons in H as [H _]. unfold xss_u32. rewrite H. apply trunc_u32_IZR, U. Qed.
  Lemma zseq_cons i n : zseq i (S n) = i :: zseq (i + 1) n.
  Proof.
    unfold zseq. cbn [seq map]. f_equal; [lia|]. rewrite <- seq_shift, map_map. apply map_ext. intros k. lia.
  Qed.
  Lemma holds_vec_u32 l : forall i, Forall u32 l -> holds a i (nums l) -> xss_vec_u32 a i (sizeZ l) = Ok l.
  Proof.
    unfold xss_vec_u32, sizeZ. rewrite Nat2Z.id. induction l as [|z t IH]; intros i F H; [reflexivity|].
    inversion F; subst. cbn [length]. rewrite zseq_cons. cbn [mapR nums map] in *. rewrite (holds_u32 i z (map IZR t)) by assumption. cbn [bind].
    apply holds_cons in H as [_ H]. rewrite IH by assumption. reflexivity.
  Qed.
  Lemma holds_vec_interp l : forall i, Forall u32 l -> holds a i (nums l) -> xss_vec_interp a i (sizeZ l) = Ok (map endf_interp l).
  Proof.
    unfold xss_vec_interp, sizeZ, xss_interp. rewrite Nat2Z.id. induction l as [|z t IH]; intros i F H; [reflexivity|].
    inversion F; subst. cbn [length]. rewrite zseq_cons. cbn [mapR nums map] in *. rewrite (holds_u32 i z (map IZR t)) by assumption. cbn [bind].
    apply holds_cons in H as [_ H]. rewrite IH by assumption. reflexivity.
  Qed.
  Lemma sizeZ_nums l : sizeZ (nums l) = sizeZ l.
  Proof. unfold nums. apply sizeZ_map. Qed.

  Lemma read_poly i coeffs : u32 (sizeZ coeffs) -> holds a i (poly_block coeffs) -> read_nu a i = Ok (FPoly coeffs).
  Proof.
    intros U H. unfold poly_block in H. unfold read_nu. rewrite (holds_u32 i 1 (IZR (sizeZ coeffs) :: coeffs)) by (exact H || (unfold u32; lia)).
    cbn [bind]. change (1 =? 1)%Z with true. unfold read_polynomial_nu. cbn [app] in H. apply holds_cons in H as [_ H].
    rewrite (holds_u32 _ _ _ U H). cbn [bind]. apply holds_cons in H as [_ H]. rewrite (holds_vec _ _ H). reflexivity.
  Qed.
  Lemma read_tab_block i NBT INT energy y : length INT = length NBT -> length y = length energy -> Forall u32 NBT -> Forall u32 INT -> (sizeZ NBT < 2 ^ 31)%Z -> u32 (sizeZ energy) ->
    holds a i (tab_block NBT INT energy y) ->
    read_tab a i = match INT with
                   | [] => make_tab1 LinLin energy y
                   | [c] => make_tab1 (endf_interp c) energy y
                   | _ => make_tab NBT (map endf_interp INT) energy y
                   end.
  Proof.
    intros LI LY FN FI SN SE H. unfold tab_block in H. pose proof (sizeZ_nonneg NBT).
    assert (SI : sizeZ INT = sizeZ NBT) by (unfold sizeZ; lia).
    assert (U0 : u32 (sizeZ NBT)) by (unfold u32; lia).
    unfold read_tab. cbn [app] in H. rewrite (holds_u32 _ _ _ U0 H). cbn [bind]. apply holds_cons in H as [_ H].
    rewrite wrap32_id by lia. apply holds_app in H as [H1 H]. apply holds_app in H as [H2 H]. rewrite !sizeZ_nums in H. rewrite !sizeZ_nums in H2.
    replace (i + 1 + sizeZ NBT + sizeZ INT)%Z with (i + 1 + 2 * sizeZ NBT)%Z in H by lia.
    rewrite (holds_u32 _ _ _ SE H). cbn [bind]. apply holds_cons in H as [_ H]. replace (i + 1 + 2 * sizeZ NBT + 1)%Z with (i + 2 + 2 * sizeZ NBT)%Z in H by lia.
    apply holds_app in H as [H3 H4]. rewrite (holds_vec _ _ H3). cbn [bind].
    replace (sizeZ energy) with (sizeZ y) at 2 by (unfold sizeZ; lia). rewrite (holds_vec _ _ H4). cbn [bind].
    destruct INT as [|c [|c2 INT]].
    - replace (sizeZ NBT) with 0%Z by (cbn in SI; lia). cbn. reflexivity.
    - replace (sizeZ NBT) with 1%Z in * by (cbn in SI; lia). cbn [Z.eqb orb Pos.eqb]. inversion FI; subst.
      unfold xss_interp. replace (i + 2)%Z with (i + 1 + 1)%Z by lia. rewrite (holds_u32 _ c []) by assumption. reflexivity.
    - assert (2 <= sizeZ NBT)%Z by (rewrite <- SI; unfold sizeZ; cbn; lia). replace ((sizeZ NBT =? 0) || (sizeZ NBT =? 1))%Z%bool with false by lia.
      rewrite (holds_vec_u32 NBT) by assumption. cbn [bind]. rewrite <- SI at 2. rewrite (holds_vec_interp (c :: c2 :: INT)) by assumption. reflexivity.
  Qed.
  Lemma read_nu_tab i NBT INT energy y t : length INT = length NBT -> length y = length energy -> Forall u32 NBT -> Forall u32 INT -> (sizeZ NBT < 2 ^ 31)%Z -> u32 (sizeZ energy) ->
    holds a i (2 :: tab_block NBT INT energy y) -> read_tab a (i + 1) = Ok t -> read_nu a i = Ok (FTab t).
  Proof.
    intros LI LY FN FI SN SE H E. unfold read_nu. rewrite (holds_u32 i 2 (tab_block NBT INT energy y)) by (exact H || (unfold u32; lia)).
    cbn [bind]. change (2 =? 1)%Z with false. rewrite E. reflexivity.
  Qed.
End Holds.

(** ** multiplicities *)
Section Nus.
  Variable a : ace R.
  Lemma nus_consistent ns E t p d : make_nus a = Ok ns ->
    (a_fissile a = true -> (0 < jxs a 1)%Z /\ jxs a 23 <> 1%Z /\ ((0 < jxs a 23)%Z -> exists x, xss a (NU a) = Ok x /\ 0 < x)) ->
    feval (nu_total ns) E = Ok t -> feval (nu_prompt ns) E = Ok p -> feval (nu_delayed ns) E = Ok d -> t = p + d.
  Proof.
    intros H C Et Ep Ed. unfold make_nus in H. destruct (a_fissile a).
    - specialize (C eq_refl) as (C1 & C2 & C3). apply bind_ok in H as ([[tt pp] dd] & Eb & H). injection H as <-.
      unfold read_nu_blocks in Eb. replace (0 <? jxs a 1)%Z with true in Eb by lia.
      apply bind_ok in Eb as (tp & Etp & Eb). apply bind_ok in Etp as (x & Ex & Etp). change (@nltb R NumR) with Rltb in Etp. change (@nofZ R NumR 0) with 0 in Etp.
      apply bind_ok in Eb as (d0 & Ed0 & Eb). injection Eb as <- <- <-. cbn [fst snd] in *.
      unfold DNU in Ed0.
      destruct (0 <? jxs a 23)%Z eqn:J.
      + destruct C3 as (x' & Ex' & X); [lia|]. rewrite Ex in Ex'. injection Ex' as <-.
        replace (Rltb 0 x) with true in Etp by (symmetry; apply Rltb_true; exact X).
        apply bind_ok in Etp as (p0 & Ep0 & Etp). injection Etp as <-. replace (0 <? jxs a 23 - 1)%Z with true in Ed0 by lia.
        apply bind_ok in Ed0 as (d1 & Ed1 & Ed0). injection Ed0 as <-. cbn in Et, Ep, Ed.
        rewrite Ep in Et. cbn in Et. rewrite Ed in Et. cbn in Et. injection Et as <-. reflexivity.
      + replace (0 <? jxs a 23 - 1)%Z with false in Ed0 by lia. injection Ed0 as <-.
        destruct (Rltb_spec 0 x).
        * apply bind_ok in Etp as (t0 & Et0 & Etp). injection Etp as <-. cbn in Et, Ep, Ed. injection Ed as <-. rewrite Et in Ep. injection Ep as <-. change (t = t + 0). lra.
        * apply bind_ok in Etp as (k & _ & Etp). destruct (_ && _)%bool; [|discriminate]. apply bind_ok in Etp as (t0 & _ & Etp). apply bind_ok in Etp as (p0 & _ & Etp).
          injection Etp as <-. cbn in Et, Ep, Ed. rewrite Et in Ed. cbn in Ed. rewrite Ep in Ed. cbn in Ed. injection Ed as <-. change (t = p + (t - p)). lra.
    - injection H as <-. cbn in *. injection Et as <-. injection Ep as <-. injection Ed as <-. change (0 = 0 + 0). lra.
  Qed.
End Nus.
