(** * Binary64: cosines of the thermal laws *)
From Coq Require Import Reals Lra Lia ZArith Bool List ZifyBool ZifyNat.
From Flocq Require Import Core IEEE754.BinarySingleNaN.
From Flocq Require Import IEEE754.PrimFloat.
From Coq Require Import Floats.
From Verif Require Import Base NumF S_PickF S_CosF M_Interp M_Tab1D M_Grid M_Ace M_PC M_OutE M_Thermal L_Search L_OrderF L_PC L_SafeT L_PickF L_LinF L_XsF L_CosF L_CosF2.
Import ListNotations.
Local Open Scope R_scope.
Local Notation rnd := (round radix2 (SpecFloat.fexp prec emax) (round_mode mode_NE)).
Local Notation fx := (SpecFloat.fexp prec emax).
Local Notation G := (generic_format radix2 fx).
Local Notation u := (bpow radix2 (-53)).

Lemma slice_at {A} (v : list A) lo hi w i a : slice v lo hi = Ok w -> atZ w i = Ok a -> atZ v (lo + i) = Ok a.
Proof.
  unfold slice. destruct (_ && _)%bool eqn:C; [|discriminate]. intros [= <-] H. pose proof (atZ_inv _ _ _ H) as [B N]. unfold sizeZ in B. rewrite firstn_length in B.
  assert (Q : nth_error (skipn (Z.to_nat lo) v) (Z.to_nat i) = Some a).
  { rewrite <- (firstn_skipn (Z.to_nat (hi - lo)) (skipn (Z.to_nat lo) v)). rewrite nth_error_app1; [exact N|rewrite firstn_length; lia]. }
  assert (Q2 : nth_error v (Z.to_nat (lo + i)) = Some a).
  { replace (Z.to_nat (lo + i)) with (Z.to_nat lo + Z.to_nat i)%nat by lia. rewrite <- Q. clear. generalize (Z.to_nat lo). intros n. revert v. induction n as [|n IH]; intros v; [reflexivity|].
    destruct v as [|x v]; [cbn; destruct (Z.to_nat i); reflexivity|]. cbn. apply IH. }
  unfold atZ. rewrite Q2. replace (0 <=? lo + i)%Z with true by lia. reflexivity.
Qed.
Lemma vec_fin a i n v : finite_file a -> xss_vec a i n = Ok v -> Forall fin v.
Proof. intros H E. apply Forall_forall. intros x I. apply In_atZ in I as (k & K). eapply H. eapply slice_at; eassumption. Qed.
Lemma fin_all_notNaN v : Forall fin v -> Forall notNaN v.
Proof. intros H. eapply Forall_impl; [|exact H]. intros x. apply fin_notNaN. Qed.

Section L.
  Variable lm : Libm.
  Local Notation NF := (NumF lm).
  Lemma mono v i j a b : Forall fin v -> @is_sorted _ NF v = true -> (i <= j)%Z -> atZ v i = Ok a -> atZ v j = Ok b -> BR a <= BR b.
  Proof.
    intros F S L Ha Hb. pose proof (sorted_le notNaN (NumF_order lm) v (fin_all_notNaN v F) S i j a b L Ha Hb) as Q. cbn [nltb NumF] in Q. rewrite Forall_forall in F.
    apply ltb_BR_f in Q; [exact Q|apply F; eapply atZ_In; eassumption|apply F; eapply atZ_In; eassumption].
  Qed.
  Lemma fin_between E a b : fin a -> fin b -> PrimFloat.ltb a E = true -> PrimFloat.ltb b E = false -> fin E.
  Proof.
    unfold fin. intros Fa Fb. rewrite !ltb_equiv. destruct (Prim2B E) as [s|[|]| |s m e Bd]; cbn in *; try reflexivity;
    destruct (Prim2B a) as [?|?| |sa ? ? ?], (Prim2B b) as [?|?| |sb ? ? ?]; try discriminate Fa; try discriminate Fb; cbn; try destruct sa; try destruct sb; cbn; congruence.
  Qed.
  Lemma lb_any v x : exists k, @lower_bound _ NF v x = Ok k /\ (0 <= k <= sizeZ v)%Z /\ (k = 0 \/ exists a, atZ v (k - 1) = Ok a /\ PrimFloat.ltb a x = true)%Z /\
    (k = sizeZ v \/ exists a, atZ v k = Ok a /\ PrimFloat.ltb a x = false)%Z.
  Proof.
    unfold lower_bound. destruct (@search_local _ NF v x (Datatypes.S (length v)) 0%Z (sizeZ v)) as (k & E & K1 & K2 & K3); try (unfold sizeZ; lia). exists k. rewrite Z.add_0_l in *. auto.
  Qed.
  (** the interpolation factor between two incident energies is in [0,1] *)
  Lemma frac_F E e1 e2 : fin e1 -> fin e2 -> 0 <= BR e1 -> PrimFloat.ltb e1 E = true -> PrimFloat.ltb e2 E = false -> fin ((E - e1) / (e2 - e1)) /\ 0 <= BR ((E - e1) / (e2 - e1)) <= 1.
  Proof.
    intros F1 F2 P L1 L2. assert (FE : fin E) by (eapply fin_between; [exact F1|exact F2|exact L1|exact L2]). apply ltb_BR in L1; [|assumption|assumption]. apply ltb_BR_f in L2; [|assumption|assumption].
    destruct (ratio (BR E) (BR e1) (BR e2) (G_BR _) (G_BR _) (G_BR _) ltac:(lra) ltac:(lra)) as (R1 & R2 & R3 & _).
    destruct (sub_BR E e1 FE F1) as [V1 W1].
    { apply Rle_lt_trans with (Rabs (BR E)); [|apply BR_lt_emax]. rewrite !Rabs_pos_eq by lra. apply rnd_le_G; [apply G_BR|lra]. }
    destruct (sub_BR e2 e1 F2 F1) as [V2 W2].
    { apply Rle_lt_trans with (Rabs (BR e2)); [|apply BR_lt_emax]. rewrite !Rabs_pos_eq by lra. apply rnd_le_G; [apply G_BR|lra]. }
    destruct (div_BR (E - e1) (e2 - e1) W1) as [V3 W3]; [rewrite V2; lra| |].
    { rewrite V1, V2. rewrite Rabs_pos_eq by lra. apply Rle_lt_trans with 1; [lra|]. change (bpow radix2 emax) with (IZR (2 ^ 1024)). apply IZR_lt. reflexivity. }
    split; [exact W3|]. rewrite V3, V1, V2. exact R3.
  Qed.
  Definition energies (v : list float) : Prop := Forall fin v /\ @is_sorted _ NF v = true /\ forall e, atZ v 0 = Ok e -> 0 <= BR e.
  Lemma energies_pos v i e : energies v -> atZ v i = Ok e -> fin e /\ 0 <= BR e.
  Proof.
    intros (F & S & P) H. pose proof (atZ_inv _ _ _ H) as [B _]. rewrite Forall_forall in F. split; [apply F; eapply atZ_In; exact H|]. destruct (atZ_ok v 0) as [e0 H0]; [lia|].
    apply Rle_trans with (BR e0); [apply P, H0|]. eapply (mono v 0 i); [apply Forall_forall, F|exact S|lia|exact H0|exact H].
  Qed.
  Lemma select_F v E l f : energies v -> @select _ NF v E = Ok (l, f) -> fin f /\ 0 <= BR f <= 1 /\ (forall e0, atZ v 0 = Ok e0 -> PrimFloat.ltb e0 E = false -> BR f = 0).
  Proof.
    intros V H. unfold select in H. destruct (lb_any v E) as (k & Ek & K & K1 & K2). rewrite Ek in H. cbn [bind] in H. destruct (k =? 0)%Z eqn:C0.
    { injection H as <- <-. pose proof zero_V as Z0. change (@nofZ _ NF 0) with 0%float. rewrite Z0. split; [exact zero_fin|]. split; [lra|]. reflexivity. }
    destruct K1 as [K1|(e1 & H1 & L1)]; [lia|].
    assert (NB : forall e0, atZ v 0 = Ok e0 -> PrimFloat.ltb e0 E = false -> False).
    { intros e0 H0 Q. pose proof V as (VF & VS & _). destruct (energies_pos v _ _ V H0) as [F0 _]. destruct (energies_pos v _ _ V H1) as [F1 _]. pose proof (mono v 0 (k - 1) e0 e1 VF VS ltac:(lia) H0 H1) as M.
      pose proof (fin_between E e1 e0 F1 F0 L1 Q) as FE. apply ltb_BR in L1; [|assumption|assumption]. apply ltb_BR_f in Q; [|assumption|assumption]. lra. }
    destruct (k =? sizeZ v)%Z eqn:CS.
    { injection H as <- <-. destruct one_BR as [V1 F1]. change (@nofZ _ NF 1) with 1%float. rewrite V1. split; [exact F1|]. split; [lra|]. intros e0 H0 Q. destruct (NB e0 H0 Q). }
    destruct K2 as [K2|(e2 & H2 & L2)]; [lia|]. rewrite H1 in H. cbn [bind] in H. replace (k - 1 + 1)%Z with k in H by lia. rewrite H2 in H. cbn [bind] in H. injection H as <- <-.
    destruct (energies_pos v _ _ V H1) as [F1 P1]. destruct (energies_pos v _ _ V H2) as [F2 _]. cbn [nsub ndiv NumF]. destruct (frac_F E e1 e2 F1 F2 P1 L1 L2) as [FF FB]. split; [exact FF|]. split; [exact FB|].
    intros e0 H0 Q. destruct (NB e0 H0 Q).
  Qed.

  (** ** incoherent elastic scattering *)
  Lemma minus_one : (@nopp _ NF (@nofZ _ NF 1)) = (-1)%float. Proof. reflexivity. Qed.
  Lemma m1_BR : BR (-1) = -1 /\ fin (-1).
  Proof. destruct one_BR as [V F]. change (-1)%float with (- (1))%float. rewrite opp_BR, V. split; [reflexivity|apply opp_fin, F]. Qed.
  Lemma row_ok row c0 cn : Forall fin row -> @is_sorted _ NF row = true -> frontR row = Ok c0 -> backR row = Ok cn -> PrimFloat.ltb c0 (-1) = false -> PrimFloat.ltb 1 cn = false -> cosines row /\ rising row.
  Proof.
    intros F S H0 Hn L0 Ln. destruct one_BR as [V1 F1]. destruct m1_BR as [VM FM]. split.
    - apply Forall_forall. intros c I. apply In_atZ in I as (k & K). pose proof (atZ_inv _ _ _ K) as [B _].
      assert (FF := F). rewrite Forall_forall in FF. assert (Fc : fin c) by (apply FF; eapply atZ_In; exact K). split; [exact Fc|].
      unfold frontR in H0. unfold backR in Hn. destruct row as [|x row]; [discriminate H0|].
      assert (A0 : atZ (x :: row) 0 = Ok c0) by exact H0. assert (An : atZ (x :: row) (sizeZ (x :: row) - 1) = Ok cn) by exact Hn.
      apply ltb_BR_f in L0; [|apply FF; eapply atZ_In; exact A0|exact FM]. apply ltb_BR_f in Ln; [|exact F1|apply FF; eapply atZ_In; exact An].
      pose proof (mono _ 0 k c0 c F S ltac:(lia) A0 K). pose proof (mono _ k (sizeZ (x :: row) - 1) c cn F S ltac:(lia) K An). lra.
    - intros i a b Ha Hb. eapply (mono row i (i + 1)); [exact F|exact S|lia|exact Ha|exact Hb].
  Qed.
  Lemma read_rows a nmu : finite_file a -> forall k i rows, @read_cosines _ NF k a i nmu = Ok rows -> forall r, In r rows -> cosines r /\ rising r.
  Proof.
    intros FF. induction k as [|k IH]; intros i rows H; cbn [read_cosines] in H; [injection H as <-; intros r []|].
    apply bind_ok in H as (row & H1 & H). apply bind_ok in H as (? & S & H). apply guard_ok in S. apply bind_ok in H as (c0 & H2 & H). cbn [nltb NumF] in H. destruct (PrimFloat.ltb c0 _) eqn:L0; [discriminate|].
    apply bind_ok in H as (cn & H3 & H). destruct (PrimFloat.ltb _ cn) eqn:Ln; [discriminate|]. apply bind_ok in H as (rest & H4 & H). injection H as <-.
    intros r [<-|I]; [|eapply IH; eassumption]. eapply row_ok; [eapply vec_fin; eassumption|exact S|exact H2|exact H3|exact L0|exact Ln].
  Qed.
End L.
