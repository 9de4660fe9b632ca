(** * Binary64: the smeared cosine of a thermal law *)
From Coq Require Import Reals Lra Lia ZArith Bool List ZifyBool ZifyNat.
From Flocq Require Import Core IEEE754.BinarySingleNaN.
From Flocq Require Import IEEE754.PrimFloat.
From Coq Require Import Floats.
From Verif Require Import Base NumF S_PickF M_Interp M_Grid M_Ace M_OutE M_Thermal L_Search L_OrderF L_PickF L_LinF L_XsF L_CosF.
Import ListNotations.
Local Open Scope R_scope.
Local Notation rnd := (round radix2 (SpecFloat.fexp prec emax) (round_mode mode_NE)).
Local Notation fx := (SpecFloat.fexp prec emax).
Local Notation G := (generic_format radix2 fx).
Local Notation u := (bpow radix2 (-53)).

Lemma opp_BR x : BR (- x) = - BR x.
Proof. unfold BR. rewrite opp_equiv. apply B2R_Bopp. Qed.
Lemma opp_fin x : fin x -> fin (- x).
Proof. unfold fin. rewrite opp_equiv, is_finite_Bopp. auto. Qed.
Lemma small_ok x : Rabs x <= 4 -> Rabs (rnd x) < bpow radix2 emax.
Proof.
  intros H. apply Rabs_le_inv in H. apply Rle_lt_trans with 4; [|change (bpow radix2 emax) with (IZR (2 ^ 1024)); apply IZR_lt; reflexivity].
  assert (G 4) by (apply (G_int 4); lia). apply Rabs_le. split; [apply rnd_ge_G; [apply G_opp; assumption|lra]|apply rnd_le_G; [assumption|lra]].
Qed.
Lemma rnd_in m x : G m -> - m <= x <= m -> - m <= rnd x <= m.
Proof. intros Gm H. split; [apply rnd_ge_G; [apply G_opp, Gm|lra]|apply rnd_le_G; [exact Gm|lra]]. Qed.
Lemma G_2 : G 2. Proof. apply (G_int 2). lia. Qed.
Lemma G_3 : G 3. Proof. apply (G_int 3). lia. Qed.

Definition cosines (r : list float) : Prop := Forall (fun c => fin c /\ -1 <= BR c <= 1) r.
Lemma cos_at r k c : cosines r -> atZ r k = Ok c -> fin c /\ -1 <= BR c <= 1.
Proof. intros H A. unfold cosines in H. rewrite Forall_forall in H. apply H. eapply atZ_In. exact A. Qed.

Section L.
  Variable lm : Libm.
  Local Notation NF := (NumF lm).
  Lemma lerp_F r1 r2 f k v : cosines r1 -> cosines r2 -> fin f -> 0 <= BR f <= 1 -> @lerp_at _ NF r1 r2 f k = Ok v ->
    exists a b, atZ r1 k = Ok a /\ atZ r2 k = Ok b /\ fin v /\ BR v = lerpR (BR a) (BR b) (BR f).
  Proof.
    intros C1 C2 Ff F H. unfold lerp_at in H. apply bind_ok in H as (a & Ha & H). apply bind_ok in H as (b & Hb & H). injection H as <-.
    destruct (cos_at _ _ _ C1 Ha) as [Fa A]. destruct (cos_at _ _ _ C2 Hb) as [Fb B]. exists a, b. split; [exact Ha|]. split; [exact Hb|]. cbn [nadd nmul nsub NumF].
    destruct (sub_BR b a Fb Fa) as [V1 F1]; [apply small_ok, Rabs_le; lra|]. pose proof (rnd_in 2 (BR b - BR a) G_2 ltac:(lra)) as Q1.
    destruct (mul_BR f (b - a) Ff F1) as [V2 F2]; [apply small_ok, Rabs_le; rewrite V1; nra|]. rewrite V1 in V2. pose proof (rnd_in 2 (BR f * rnd (BR b - BR a)) G_2 ltac:(nra)) as Q2.
    destruct (add_BR a (f * (b - a)) Fa F2) as [V3 F3]; [apply small_ok, Rabs_le; rewrite V2; lra|]. split; [exact F3|]. rewrite V3, V2. reflexivity.
  Qed.
  Definition rising (r : list float) : Prop := forall i a b, atZ r i = Ok a -> atZ r (i + 1) = Ok b -> BR a <= BR b.
  (** what is known of the gap on one side: [e] is 1 + mu on the left, 1 - mu on the right *)
  Definition gap (mu e : R) (d : float) : Prop := fin d /\ -2 <= BR d <= 4 /\ (e <= 1 -> BR d <= 2 * e + 2 * u) /\ - (2 * (1 - Rabs mu) + 2 * u) <= BR d.
  Lemma left_gap mu L : fin mu -> cosR (BR mu) -> fin L -> cosR (BR L) -> (BR mu <= 0 -> rnd (BR L - BR mu) <= 2 * (1 + BR mu) + 2 * u) -> gap (BR mu) (1 + BR mu) (mu - L).
  Proof.
    intros Fm M FL CL H. unfold cosR in *. pose proof u_small as [U0 U1]. destruct (sub_BR mu L) as [V F]; [assumption|assumption|apply small_ok, Rabs_le; lra|]. split; [exact F|]. rewrite V.
    pose proof (rnd_in 2 (BR mu - BR L) G_2 ltac:(lra)) as Q. assert (H54 : bpow radix2 (-54) <= u) by (apply bpow_le; lia). split; [lra|]. split.
    - intros E. assert (W : rnd (BR mu - BR L) <= rnd (1 + BR mu)) by (apply rnd_le; lra).
      pose proof (half_ulp (1 + BR mu) 0 ltac:(lia)) as E0. change (bpow radix2 0) with 1 in E0. change (0 - 54)%Z with (-54)%Z in E0. specialize (E0 ltac:(apply Rabs_le; lra)). apply Rabs_le_inv in E0. lra.
    - destruct (Rle_dec (BR mu) 0) as [N|N].
      + specialize (H N). rewrite Rabs_left1 by exact N. replace (BR mu - BR L) with (- (BR L - BR mu)) by ring. rewrite rnd_opp. lra.
      + rewrite Rabs_pos_eq by lra. assert (W : rnd (- (1 - BR mu)) <= rnd (BR mu - BR L)) by (apply rnd_le; lra). rewrite rnd_opp in W.
        pose proof (half_ulp (1 - BR mu) 0 ltac:(lia)) as E0. change (bpow radix2 0) with 1 in E0. change (0 - 54)%Z with (-54)%Z in E0. specialize (E0 ltac:(apply Rabs_le; lra)). apply Rabs_le_inv in E0. lra.
  Qed.
  Lemma right_gap mu L : fin mu -> cosR (BR mu) -> fin L -> cosR (BR L) -> (0 <= BR mu -> rnd (BR mu - BR L) <= 2 * (1 - BR mu) + 2 * u) -> gap (BR mu) (1 - BR mu) (L - mu).
  Proof.
    intros Fm M FL CL H. unfold cosR in *. pose proof u_small as [U0 U1]. destruct (sub_BR L mu) as [V F]; [assumption|assumption|apply small_ok, Rabs_le; lra|]. split; [exact F|]. rewrite V.
    pose proof (rnd_in 2 (BR L - BR mu) G_2 ltac:(lra)) as Q. assert (H54 : bpow radix2 (-54) <= u) by (apply bpow_le; lia). split; [lra|]. split.
    - intros E. assert (W : rnd (BR L - BR mu) <= rnd (1 - BR mu)) by (apply rnd_le; lra).
      pose proof (half_ulp (1 - BR mu) 0 ltac:(lia)) as E0. change (bpow radix2 0) with 1 in E0. change (0 - 54)%Z with (-54)%Z in E0. specialize (E0 ltac:(apply Rabs_le; lra)). apply Rabs_le_inv in E0. lra.
    - destruct (Rle_dec 0 (BR mu)) as [N|N].
      + specialize (H N). rewrite Rabs_pos_eq by exact N. replace (BR L - BR mu) with (- (BR mu - BR L)) by ring. rewrite rnd_opp. lra.
      + rewrite Rabs_left1 by lra. assert (W : rnd (- (1 + BR mu)) <= rnd (BR L - BR mu)) by (apply rnd_le; lra). rewrite rnd_opp in W.
        pose proof (half_ulp (1 + BR mu) 0 ltac:(lia)) as E0. change (bpow radix2 0) with 1 in E0. change (0 - 54)%Z with (-54)%Z in E0. specialize (E0 ltac:(apply Rabs_le; lra)). apply Rabs_le_inv in E0. lra.
  Qed.
  Lemma left_edge mu : fin mu -> cosR (BR mu) -> gap (BR mu) (1 + BR mu) (mu - (- (1) - (mu + 1)))%float.
  Proof.
    intros Fm M. unfold cosR in M. pose proof u_small as [U0 U1]. destruct one_BR as [V1 F1]. pose proof (opp_BR 1) as VM. rewrite V1 in VM. pose proof (opp_fin 1 F1) as FM.
    destruct (add_BR mu 1 Fm F1) as [VA FA]; [apply small_ok, Rabs_le; rewrite V1; lra|]. rewrite V1 in VA.
    assert (QA : 0 <= rnd (BR mu + 1) <= 2) by (split; [apply rnd_ge_G; [apply G0|lra]|apply rnd_le_G; [apply G_2|lra]]).
    destruct (sub_BR (- (1)) (mu + 1) FM FA) as [VB FB]; [apply small_ok, Rabs_le; rewrite VM, VA; lra|]. rewrite VM, VA in VB.
    assert (EB : BR (- (1) - (mu + 1)) = - rnd (1 + rnd (BR mu + 1))) by (rewrite VB, <- rnd_opp; f_equal; ring).
    assert (QB : 1 <= rnd (1 + rnd (BR mu + 1)) <= 3) by (split; [apply rnd_ge_G; [apply G_1|lra]|apply rnd_le_G; [apply G_3|lra]]).
    destruct (sub_BR mu (- (1) - (mu + 1)) Fm FB) as [VC FC]; [apply small_ok, Rabs_le; rewrite EB; lra|]. rewrite EB in VC. split; [exact FC|]. rewrite VC.
    replace (BR mu - - rnd (1 + rnd (BR mu + 1))) with (rnd (1 + rnd (BR mu + 1)) + BR mu) by ring. clear VC FC EB VB FB.
    assert (P : 0 <= rnd (rnd (1 + rnd (BR mu + 1)) + BR mu)) by (apply rnd_ge_G; [apply G0|lra]).
    assert (AB : 0 <= 1 - Rabs (BR mu)) by (pose proof (Rabs_le (BR mu) 1 ltac:(lra)); lra). split; [|split; [|lra]].
    - split; [lra|]. apply rnd_le_G; [apply (G_int 4); lia|lra].
    - intros E. pose proof (edge (- BR mu) ltac:(apply G_opp, G_BR) ltac:(lra)) as W. replace (1 - - BR mu) with (BR mu + 1) in W by ring.
      replace (rnd (1 + rnd (BR mu + 1)) - - BR mu) with (rnd (1 + rnd (BR mu + 1)) + BR mu) in W by ring. lra.
  Qed.
  Lemma right_edge mu : fin mu -> cosR (BR mu) -> gap (BR mu) (1 - BR mu) (1 - (mu - 1) - mu)%float.
  Proof.
    intros Fm M. unfold cosR in M. pose proof u_small as [U0 U1]. destruct one_BR as [V1 F1].
    destruct (sub_BR mu 1 Fm F1) as [VA FA]; [apply small_ok, Rabs_le; rewrite V1; lra|]. rewrite V1 in VA.
    assert (EA : BR (mu - 1) = - rnd (1 - BR mu)) by (rewrite VA, <- rnd_opp; f_equal; ring).
    assert (QA : 0 <= rnd (1 - BR mu) <= 2) by (split; [apply rnd_ge_G; [apply G0|lra]|apply rnd_le_G; [apply G_2|lra]]).
    destruct (sub_BR 1 (mu - 1) F1 FA) as [VB FB]; [apply small_ok, Rabs_le; rewrite V1, EA; lra|]. rewrite V1, EA in VB.
    replace (1 - - rnd (1 - BR mu)) with (1 + rnd (1 - BR mu)) in VB by ring.
    assert (QB : 1 <= rnd (1 + rnd (1 - BR mu)) <= 3) by (split; [apply rnd_ge_G; [apply G_1|lra]|apply rnd_le_G; [apply G_3|lra]]).
    destruct (sub_BR (1 - (mu - 1)) mu FB Fm) as [VC FC]; [apply small_ok, Rabs_le; rewrite VB; lra|]. rewrite VB in VC. split; [exact FC|]. rewrite VC.
    assert (P : 0 <= rnd (rnd (1 + rnd (1 - BR mu)) - BR mu)) by (apply rnd_ge_G; [apply G0|lra]).
    assert (AB : 0 <= 1 - Rabs (BR mu)) by (pose proof (Rabs_le (BR mu) 1 ltac:(lra)); lra). split; [|split; [|lra]].
    - split; [lra|]. apply rnd_le_G; [apply (G_int 4); lia|lra].
    - intros E. apply edge; [apply G_BR|lra].
  Qed.
  Lemma half_draw xi : unit_double xi -> fin (xi - (1 / 2)) /\ - / 2 <= BR (xi - (1 / 2)) <= / 2.
  Proof.
    intros U. destruct (unit_double_R xi U) as [Fx X]. destruct one_BR as [V1 F1]. 
    assert (VH : BR (1 / 2) = / 2 /\ fin (1 / 2)).
    { assert (B2 : BR 2 = 2). { pose proof (ofZ_BR 2 ltac:(lia)) as [W _]. exact W. }
      destruct (div_BR 1 2 F1) as [V F]; [rewrite B2; lra|rewrite B2, V1; apply small_ok, Rabs_le; lra|]. split; [|exact F]. rewrite V, B2, V1. replace (1 / 2) with (/ 2) by lra. apply rnd_G.
      replace (/ 2) with (IZR 1 * bpow radix2 (-1)); [apply G_scale; lia|]. change (bpow radix2 (-1)) with (/ 2). lra. }
    destruct VH as [VH FH]. assert (GH : G (/ 2)) by (rewrite <- VH; apply G_BR).
    destruct (sub_BR xi (1 / 2) Fx FH) as [V F]; [apply small_ok, Rabs_le; rewrite VH; lra|]. split; [exact F|]. rewrite V, VH. apply rnd_in; [exact GH|lra].
  Qed.
  Lemma finish mu l r xi : fin mu -> cosR (BR mu) -> gap (BR mu) (1 + BR mu) l -> gap (BR mu) (1 - BR mu) r -> unit_double xi ->
    let v := (mu + (@nmin _ NF l r) * (xi - (1 / 2)))%float in fin v /\ cosR (BR v).
  Proof.
    intros Fm M (Fl & Rl & Ll & Nl) (Fr & Rr & Lr & Nr) U. pose proof u_small as [U0 U1]. destruct (half_draw xi U) as [Fs B]. set (s := (xi - (1 / 2))%float) in *.
    set (d := @nmin _ NF l r). assert (D : fin d /\ BR d <= BR l /\ BR d <= BR r /\ -2 <= BR d <= 4 /\ - (2 * (1 - Rabs (BR mu)) + 2 * u) <= BR d).
    { unfold d, nmin. cbn [nltb NumF]. destruct (PrimFloat.ltb r l) eqn:C.
      - apply ltb_BR in C; [|assumption|assumption]. repeat split; try assumption; lra.
      - apply ltb_BR_f in C; [|assumption|assumption]. repeat split; try assumption; lra. }
    destruct D as (Fd & D1 & D2 & D3 & D4). cbv zeta. assert (M' := M). unfold cosR in M.
    destruct (mul_BR d s Fd Fs) as [V1 F1]; [apply small_ok, Rabs_le; nra|]. pose proof (rnd_in 2 (BR d * BR s) G_2 ltac:(nra)) as Q.
    destruct (add_BR mu (d * s) Fm F1) as [V2 F2]; [apply small_ok, Rabs_le; rewrite V1; lra|]. rewrite V1 in V2.
    split; [exact F2|]. rewrite V2. destruct (Rle_dec 0 (BR d)) as [P|P].
    - apply moved; [exact M'|apply G_BR|exact P| |exact B]. unfold Rabs. destruct (Rcase_abs (BR mu)); [specialize (Ll ltac:(lra))|specialize (Lr ltac:(lra))]; lra.
    - replace (BR d * BR s) with (- BR d * - BR s) by ring. apply moved; [exact M'|apply G_opp, G_BR|lra|lra|lra].
  Qed.
  Lemma smear_F r1 r2 f k n xi ds mu rest : cosines r1 -> cosines r2 -> rising r1 -> rising r2 -> fin f -> 0 <= BR f <= 1 -> unit_double xi ->
    @smear _ NF r1 r2 f k n (xi :: ds) = Ok (mu, rest) -> fin mu /\ cosR (BR mu).
  Proof.
    intros C1 C2 I1 I2 Ff F U H. unfold smear, rbind, rlift in H. apply bind_ok in H as (pm & H1 & H). apply bind_ok in H1 as (m & Em & H1). injection H1 as <-.
    apply bind_ok in H as (pl & H1 & H). apply bind_ok in H1 as (l & El & H1). injection H1 as <-. apply bind_ok in H as (pr & H1 & H). apply bind_ok in H1 as (r & Er & H1). injection H1 as <-.
    cbn [draw bind] in H. injection H as <- _. destruct (lerp_F r1 r2 f k m C1 C2 Ff F Em) as (a & b & Ha & Hb & Fm & Vm).
    destruct (cos_at _ _ _ C1 Ha) as [Fa A]. destruct (cos_at _ _ _ C2 Hb) as [Fb B]. assert (M : cosR (BR m)) by (rewrite Vm; apply lerp_in; [apply G_BR|exact A|exact B|exact F]).
    apply finish; [exact Fm|exact M| | |exact U].
    - destruct (k =? 0)%Z.
      + injection El as <-. apply left_edge; assumption.
      + destruct (lerp_F r1 r2 f (k - 1) l C1 C2 Ff F El) as (a' & b' & Ha' & Hb' & Fl & Vl). destruct (cos_at _ _ _ C1 Ha') as [Fa' A']. destruct (cos_at _ _ _ C2 Hb') as [Fb' B'].
        assert (O1 : BR a' <= BR a) by (eapply I1; [exact Ha'|rewrite <- Ha; f_equal; lia]). assert (O2 : BR b' <= BR b) by (eapply I2; [exact Hb'|rewrite <- Hb; f_equal; lia]).
        apply left_gap; [exact Fm|exact M|exact Fl|rewrite Vl; apply lerp_in; [apply G_BR|exact A'|exact B'|exact F]|].
        intros N. pose proof (wrong_side (- BR a) (- BR b) (- BR a') (- BR b') (BR f)) as W. rewrite !lerp_opp, <- Vm, <- Vl in W. unfold cosR in W.
        replace (- BR m - - BR l) with (BR l - BR m) in W by ring. replace (1 - - BR m) with (1 + BR m) in W by ring. apply W; try (apply G_opp, G_BR); try apply G_BR; lra.
    - destruct (k =? wrap32 (n - 1))%Z.
      + injection Er as <-. apply right_edge; assumption.
      + destruct (lerp_F r1 r2 f (k + 1) r C1 C2 Ff F Er) as (a' & b' & Ha' & Hb' & Fr & Vr). destruct (cos_at _ _ _ C1 Ha') as [Fa' A']. destruct (cos_at _ _ _ C2 Hb') as [Fb' B'].
        assert (O1 : BR a <= BR a') by (eapply I1; eassumption). assert (O2 : BR b <= BR b') by (eapply I2; eassumption).
        apply right_gap; [exact Fm|exact M|exact Fr|rewrite Vr; apply lerp_in; [apply G_BR|exact A'|exact B'|exact F]|].
        intros N. rewrite Vm, Vr in *. apply wrong_side; try apply G_BR; assumption.
  Qed.
End L.
