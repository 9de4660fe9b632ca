(** * Binary64: cosines of the thermal laws, from the file *)
From Coq Require Import Reals Lra Lia ZArith Bool List ZifyBool ZifyNat.
From Flocq Require Import Core IEEE754.BinarySingleNaN.
From Flocq Require Import IEEE754.PrimFloat.
From Coq Require Import Floats.
From Verif Require Import Base NumF S_PickF S_CosF M_Interp M_Tab1D M_Grid M_Ace M_PC M_OutE M_Thermal L_Search L_OrderF L_PC L_SafeT L_PickF L_LinF L_XsF L_CosF L_CosF2 L_CosF3.
Import ListNotations.
Local Open Scope R_scope.
Local Notation rnd := (round radix2 (SpecFloat.fexp prec emax) (round_mode mode_NE)).
Local Notation fx := (SpecFloat.fexp prec emax).
Local Notation G := (generic_format radix2 fx).
Local Notation u := (bpow radix2 (-53)).

Section L.
  Variable lm : Libm.
  Local Notation NF := (NumF lm).
  (** the energies of a table read at word [w] *)
  Lemma vec_energies a w n v : finite_file a -> first_energy_ok a w -> xss_vec a (w - 1 + 1) n = Ok v -> @is_sorted _ NF v = true -> energies lm v.
  Proof.
    intros F P H S. split; [eapply vec_fin; eassumption|]. split; [exact S|]. intros e He. apply P. unfold xss. pose proof (slice_at _ _ _ _ _ _ H He) as Q. rewrite <- Q. f_equal. lia.
  Qed.
  Lemma inco_parts a d : @make_inco _ NF a = Ok d -> (0 < sizeZ (ie_in d))%Z -> finite_file a -> first_energy_ok a (jxs a 3) ->
    energies lm (ie_in d) /\ (forall r, In r (ie_cos d) -> cosines r /\ rising r) /\ forall e, atZ (ie_in d) 0 = Ok e -> xss a (jxs a 3) = Ok e.
  Proof.
    intros H P F PE. unfold make_inco in H. destruct (_ || _)%bool.
    { apply bind_ok in H as (t & _ & H). injection H as <-. cbn in P. discriminate. }
    apply bind_ok in H as (Ne & _ & H). apply bind_ok in H as (en & He & H). apply bind_ok in H as (vals & _ & H). apply bind_ok in H as (? & _ & H). apply bind_ok in H as (t & Ht & H). apply bind_ok in H as (rows & Hr & H). injection H as <-.
    cbn [ie_in ie_cos]. unfold make_tab1 in Ht. apply bind_ok in Ht as (? & _ & Ht). apply bind_ok in Ht as (? & S & _). apply guard_ok in S.
    split; [eapply vec_energies; eassumption|]. split; [eapply read_rows; eassumption|]. intros e E. unfold xss. pose proof (slice_at _ _ _ _ _ _ He E) as Q. rewrite <- Q. f_equal. lia.
  Qed.
  Lemma inco_law a d E ds : @make_inco _ NF a = Ok d -> (2 <= sizeZ (ie_in d))%Z -> finite_file a -> first_energy_ok a (jxs a 3) -> Forall unit_double ds -> (2 <= length ds)%nat ->
    exists mu rest, @inco_sample _ NF d E ds = Ok ((mu, E), rest) /\ cosine mu.
  Proof.
    intros M P F PE U L. destruct (inco_parts a d M ltac:(lia) F PE) as (V & R & A0). destruct (inco_safeF lm a d E ds M P U L) as ([mu E'] & rest & H). exists mu, rest.
    assert (Q : E' = E /\ cosine mu); [|destruct Q as (-> & Q1); auto].
    clear L. unfold inco_sample in H. replace (sizeZ (ie_in d) =? 0)%Z with false in H by lia. unfold rbind at 1, rlift at 1 in H. apply bind_ok in H as (p & H1 & H). apply bind_ok in H1 as ([i f] & HS & H1). injection H1 as <-.
    destruct (select_F lm _ _ _ _ V HS) as (Ff & Fb & _). unfold rbind at 1 in H. destruct ds as [|x ds]; [discriminate H|]. cbn [draw bind] in H. unfold rbind at 1, rlift at 1 in H. apply bind_ok in H as (p & H1 & H). apply bind_ok in H1 as (j & _ & H1). injection H1 as <-.
    unfold rbind at 1, rlift at 1 in H. apply bind_ok in H as (p & H1 & H). apply bind_ok in H1 as (r1 & Hr1 & H1). injection H1 as <-. unfold rbind at 1, rlift at 1 in H. apply bind_ok in H as (p & H1 & H). apply bind_ok in H1 as (r2 & Hr2 & H1). injection H1 as <-.
    unfold rbind at 1 in H. apply bind_ok in H as ([m rest'] & HM & H). injection H as <- <- <-. split; [reflexivity|].
    inversion U as [|? ? _ U2]; subst. destruct ds as [|z ds].
    { exfalso. unfold smear, rbind, rlift in HM. do 3 (apply bind_ok in HM as (? & W & HM); apply bind_ok in W as (? & _ & W); injection W as <-). cbn in HM. discriminate. }
    inversion U2 as [|? ? Uz _]; subst. destruct (R _ (atZ_In _ _ _ Hr1)) as [C1 I1]. destruct (R _ (atZ_In _ _ _ Hr2)) as [C2 I2].
    exact (smear_F lm r1 r2 f j (ie_nmu d) z ds m _ C1 C2 I1 I2 Ff Fb Uz HM).
  Qed.

  (** ** coherent elastic scattering *)
  Lemma double_G x : G x -> G (2 * x).
  Proof.
    intros Gx. destruct (Req_dec x 0) as [->|N]; [rewrite Rmult_0_r; apply G0|].
    unfold generic_format in Gx. set (k := Ztrunc (scaled_mantissa radix2 fx x)) in Gx.
    assert (E : x * bpow radix2 1 = F2R (Float radix2 k (cexp radix2 fx x + 1))).
    { rewrite Gx at 1. unfold F2R. cbn [Fnum Fexp]. rewrite Rmult_assoc, <- bpow_plus. reflexivity. }
    replace (2 * x) with (x * bpow radix2 1) by (change (bpow radix2 1) with 2; ring). rewrite E. apply generic_format_F2R. cbn [Fnum Fexp]. intros _. rewrite <- E. unfold cexp. rewrite (mag_mult_bpow radix2 x 1 N). rewrite fx_FLT. unfold FLT_exp. lia.
  Qed.
  Lemma bragg Eb E : fin Eb -> fin E -> 0 <= BR Eb < BR E -> BR E <= 2 ^ 1022 -> cosine (1 - 2 * Eb / E)%float.
  Proof.
    intros Fb FE B M. destruct one_BR as [V1 F1]. assert (B2 : BR 2 = 2). { pose proof (ofZ_BR 2 ltac:(lia)) as [W _]. exact W. } assert (F2 : fin 2) by reflexivity.
    assert (T : 2 * BR Eb < bpow radix2 1023). { rewrite bpow1023. change (2 ^ 1023) with (2 * 2 ^ 1022). lra. }
    assert (LE : bpow radix2 1023 < bpow radix2 emax) by (apply bpow_lt; reflexivity).
    destruct (mul_BR 2 Eb F2 Fb) as [V2 W2]. { rewrite B2, (rnd_G _ (double_G _ (G_BR Eb))). rewrite Rabs_pos_eq by lra. lra. } rewrite B2, (rnd_G _ (double_G _ (G_BR Eb))) in V2.
    assert (Q : 0 <= 2 * BR Eb / BR E <= 2). { split; [apply Rmult_le_pos; [lra|apply Rlt_le, Rinv_0_lt_compat; lra]|]. apply Rmult_le_reg_r with (BR E); [lra|]. unfold Rdiv. rewrite Rmult_assoc, Rinv_l by lra. lra. }
    destruct (div_BR (2 * Eb) E W2) as [V3 W3]; [lra|rewrite V2; apply small_ok, Rabs_le; lra|]. rewrite V2 in V3.
    assert (Q3 : 0 <= rnd (2 * BR Eb / BR E) <= 2) by (split; [apply rnd_ge_G; [apply G0|lra]|apply rnd_le_G; [apply G_2|lra]]).
    destruct (sub_BR 1 (2 * Eb / E) F1 W3) as [V4 W4]; [rewrite V1, V3; apply small_ok, Rabs_le; lra|]. split; [exact W4|]. rewrite V4, V1, V3. apply rnd_in; [apply G_1|lra].
  Qed.
  Lemma coh_law a c E ds : @make_coh _ NF a = Ok c -> (0 < sizeZ (c_edges c))%Z -> finite_file a -> fin E -> BR E <= 2 ^ 1022 -> (1 <= length ds)%nat ->
    exists mu rest, @coh_sample _ NF c E ds = Ok ((mu, E), rest) /\ cosine mu.
  Proof.
    intros M P F FE B L. destruct (coh_safeF lm a c E ds M P L) as ([mu E'] & rest & H). exists mu, rest. assert (Q : E' = E /\ cosine mu); [|destruct Q as [-> Q]; auto].
    assert (V : energies lm (c_edges c)).
    { unfold make_coh in M. destruct (nxs a 4 =? 4)%Z; [|injection M as <-; discriminate P]. apply bind_ok in M as (Ne & _ & M). apply bind_ok in M as (ed & He & M). apply bind_ok in M as (su & _ & M).
      apply bind_ok in M as (? & S & M). apply guard_ok in S. apply bind_ok in M as (e0 & H0 & M). cbn [nltb NumF] in M. destruct (PrimFloat.ltb e0 _) eqn:L0; [discriminate|]. injection M as <-. cbn [c_edges].
      pose proof (vec_fin a _ _ _ F He) as FV. split; [exact FV|]. split; [exact S|]. intros e A. unfold frontR in H0. destruct ed as [|y0 ed]; [discriminate|]. injection H0 as ->. injection A as <-.
      change (@nofZ _ NF 0) with 0%float in L0. apply ltb_BR_f in L0; [rewrite zero_V in L0; exact L0|inversion FV; assumption|exact zero_fin]. }
    destruct one_BR as [V1 F1].
    clear L. unfold coh_sample in H. replace (sizeZ (c_edges c) =? 0)%Z with false in H by lia. unfold rbind at 1, rlift at 1 in H. apply bind_ok in H as (p & H1 & H). apply bind_ok in H1 as (e0 & H0 & H1). injection H1 as <-.
    destruct (nltb e0 E); [|injection H as <- <- _; split; [reflexivity|]; change (@nofZ _ NF 1) with 1%float; split; [exact F1|rewrite V1; lra]].
    unfold rbind at 1, rlift at 1 in H. apply bind_ok in H as (p & H1 & H). apply bind_ok in H1 as (k & Hk & H1). injection H1 as <-. cbv zeta in H.
    unfold rbind at 1 in H. destruct ds as [|x ds]; [discriminate H|]. cbn [draw bind] in H. unfold rbind at 1, rlift at 1 in H. apply bind_ok in H as (p & H1 & H). apply bind_ok in H1 as (s & Hs & H1). injection H1 as <-.
    unfold rbind at 1, rlift at 1 in H. apply bind_ok in H as (p & H1 & H). apply bind_ok in H1 as (si & Hsi & H1). injection H1 as <-. unfold rbind at 1, rlift at 1 in H. apply bind_ok in H as (p & H1 & H). apply bind_ok in H1 as (Eb & HEb & H1). injection H1 as <-.
    injection H as <- <- _. split; [reflexivity|]. destruct (lb_any lm (c_edges c) E) as (k' & Ek & K & K1 & _). rewrite Ek in Hk. injection Hk as ->.
    pose proof (atZ_inv _ _ _ Hs) as [RS _]. destruct K1 as [K1|(el & Hel & Lel)]; [lia|].
    assert (SI : (0 <= si <= k - 1)%Z).
    { unfold lower_bound_range in Hsi. destruct (@search_local _ NF (c_sum c) (x * s)%float (Datatypes.S (length (c_sum c))) 0%Z (k - 1 - 0)%Z) as (k2 & E2 & K2 & _); try (unfold sizeZ in *; lia). cbn [nmul NumF] in Hsi. rewrite E2 in Hsi. injection Hsi as <-. lia. }
    destruct (energies_pos lm _ _ _ V HEb) as [FB PB]. destruct (energies_pos lm _ _ _ V Hel) as [FL _]. destruct V as (VF & VS & _). pose proof (mono lm _ si (k - 1) Eb el VF VS ltac:(lia) HEb Hel) as ML.
    apply ltb_BR in Lel; [|assumption|assumption]. change (cosine (1 - 2 * Eb / E)%float). apply bragg; [exact FB|exact FE|lra|exact B].
  Qed.

  (** ** clamped cosines *)
  Lemma abs_BR x : fin x -> BR (abs x) = Rabs (BR x) /\ fin (abs x).
  Proof. intros F. unfold BR, fin in *. rewrite abs_equiv. split; [apply B2R_Babs|rewrite is_finite_Babs; exact F]. Qed.
  Lemma plus_one_cos : cosine 1. Proof. destruct one_BR as [V F]. split; [exact F|rewrite V; lra]. Qed.
  Lemma minus_one_cos : cosine (-1). Proof. destruct m1_BR as [V F]. split; [exact F|rewrite V; lra]. Qed.
  Lemma clamp_cos v : cosine v -> cosine (@clamp_mu _ NF v).
  Proof. intros C. unfold clamp_mu. destruct (nltb _ _); [|exact C]. destruct (nsignbit v); [exact minus_one_cos|exact plus_one_cos]. Qed.
  Lemma clamp_any v : PrimFloat.is_nan (@clamp_mu _ NF v) = true \/ cosine (@clamp_mu _ NF v).
  Proof.
    unfold clamp_mu. destruct (nltb _ _) eqn:L; [right; destruct (nsignbit v); [exact minus_one_cos|exact plus_one_cos]|].
    destruct (PrimFloat.is_nan v) eqn:N; [left; reflexivity|right]. change (PrimFloat.ltb 1 (abs v) = false) in L. destruct one_BR as [V1 F1].
    assert (F : fin v).
    { apply notNaN_is_nan in N. unfold notNaN, fin in *. rewrite <- B2SF_Prim2B in N. rewrite ltb_equiv, abs_equiv in L. destruct (Prim2B v) as [s|s| |s m e Bd]; try reflexivity; [|exfalso; apply N; reflexivity].
      destruct s; vm_compute in L; discriminate. }
    destruct (abs_BR v F) as [VA FA]. apply ltb_BR_f in L; [|exact F1|exact FA]. rewrite VA, V1 in L. split; [exact F|apply Rabs_le_inv; exact L].
  Qed.

  (** ** discrete energies *)
  Lemma checked_cos mu : Forall fin mu -> existsb (fun x => PrimFloat.ltb x (-1) || PrimFloat.ltb 1 x)%bool mu = false -> cosines mu.
  Proof.
    intros F H. destruct one_BR as [V1 F1]. destruct m1_BR as [VM FM]. unfold cosines. rewrite Forall_forall in F |- *. intros c I. split; [apply F, I|].
    assert (Q : (PrimFloat.ltb c (-1) || PrimFloat.ltb 1 c)%bool = false).
    { destruct (_ || _)%bool eqn:B; [|reflexivity]. assert (existsb (fun x => PrimFloat.ltb x (-1) || PrimFloat.ltb 1 x)%bool mu = true) by (apply existsb_exists; exists c; auto). congruence. }
    apply orb_false_iff in Q as [Q1 Q2]. apply ltb_BR_f in Q1; [|apply F, I|exact FM]. apply ltb_BR_f in Q2; [|exact F1|apply F, I]. lra.
  Qed.
  Lemma dce_row a nmu : finite_file a -> forall k i row i', @read_dce_row _ NF k a i nmu = Ok (row, i') -> forall p, In p row -> cosines (snd p).
  Proof.
    intros FF. induction k as [|k IH]; intros i row i' H; cbn [read_dce_row] in H; [injection H as <- _; intros p []|].
    apply bind_ok in H as (E & _ & H). destruct (nleb E _); [discriminate|]. apply bind_ok in H as (mu & Hm & H). apply bind_ok in H as (? & C & H). apply guard_ok in C.
    apply bind_ok in H as ([rest i2] & Hr & H). injection H as <- _. intros p [<-|I]; [|eapply IH; eassumption]. cbn [snd]. apply checked_cos; [eapply vec_fin; eassumption|]. apply negb_true_iff in C. exact C.
  Qed.
  Lemma dce_rows a noe nmu : finite_file a -> forall k i rows, @read_dce _ NF k noe a i nmu = Ok rows -> forall row, In row rows -> forall p, In p row -> cosines (snd p).
  Proof.
    intros FF. induction k as [|k IH]; intros i rows H; cbn [read_dce] in H; [injection H as <-; intros r []|].
    apply bind_ok in H as ([row i2] & Hr & H). apply bind_ok in H as (rest & H4 & H). injection H as <-. intros r [<-|I]; [eapply dce_row; eassumption|eapply IH; eassumption].
  Qed.
  Lemma dce_at_cos row j k p : (forall q, In q row -> cosines (snd q)) -> @dce_at float row j k = Ok p -> cosine (fst p).
  Proof.
    intros C H. unfold dce_at in H. apply bind_ok in H as (q & Hq & H). apply bind_ok in H as (mu & Hm & H). injection H as <-. cbn [fst]. apply (cos_at (snd q) k); [apply C; eapply atZ_In; exact Hq|exact Hm].
  Qed.
  Lemma dce_law a d E ds : @make_dce _ NF a = Ok d -> (0 < sizeZ (d_in d))%Z -> (0 < d_noe d)%Z -> (0 < d_nmu d)%Z -> finite_file a -> first_energy_ok a (jxs a 0) -> Forall unit_double ds -> (3 <= length ds)%nat ->
    exists mu Eo rest, @dce_sample _ NF d E ds = Ok ((mu, Eo), rest) /\ cosine mu.
  Proof.
    intros M P1 P2 P3 F PE U L. destruct (dce_safeF lm a d E ds M P1 P2 P3 U L) as ([mu Eo] & rest & H). exists mu, Eo, rest. split; [exact H|]. clear U L P2 P3.
    assert (D : energies lm (d_in d) /\ forall row, In row (d_out d) -> forall p, In p row -> cosines (snd p)).
    { unfold make_dce in M. apply bind_ok in M as (? & _ & M). apply bind_ok in M as (Ne & _ & M). apply bind_ok in M as (en & He & M). apply bind_ok in M as (? & S & M). apply guard_ok in S.
      apply bind_ok in M as (? & _ & M). apply bind_ok in M as (out & Ho & M). injection M as <-. cbn [d_in d_out]. split; [eapply vec_energies; eassumption|eapply dce_rows; eassumption]. }
    destruct D as [V C]. unfold dce_sample in H.
    unfold rbind at 1 in H. destruct ds as [|x ds]; [discriminate H|]. cbn [draw bind] in H. unfold rbind at 1, rlift at 1 in H. apply bind_ok in H as (p & H1 & H). apply bind_ok in H1 as (k & _ & H1). injection H1 as <-.
    unfold rbind at 1 in H. apply bind_ok in H as ([j ds2] & _ & H). unfold rbind at 1, rlift at 1 in H. apply bind_ok in H as (p & H1 & H). apply bind_ok in H1 as (it & Hit & H1). injection H1 as <-.
    destruct (lb_any lm (d_in d) E) as (k' & Ek & K & K1 & K2). rewrite Ek in Hit. injection Hit as ->.
    destruct (it =? 0)%Z eqn:C0.
    { unfold rbind, rlift in H. apply bind_ok in H as (p & H1 & H). apply bind_ok in H1 as (row & Hr & H1). injection H1 as <-. apply bind_ok in H as (q & Hq & H). injection H as -> _.
      eapply (dce_at_cos row j k (mu, Eo)); [|exact Hq]. apply C. unfold frontR in Hr. destruct (d_out d) as [|r0 t]; [discriminate|]. injection Hr as ->. left. reflexivity. }
    destruct (it =? sizeZ (d_in d))%Z eqn:CS.
    { unfold rbind, rlift in H. apply bind_ok in H as (p & H1 & H). apply bind_ok in H1 as (row & Hr & H1). injection H1 as <-. apply bind_ok in H as (q & Hq & H). injection H as -> _.
      eapply (dce_at_cos row j k (mu, Eo)); [|exact Hq]. apply C. unfold backR in Hr. destruct (d_out d) as [|r0 t]; [discriminate|]. eapply atZ_In. exact Hr. }
    destruct K1 as [K1|(e1' & He1 & L1)]; [lia|]. destruct K2 as [K2|(e2' & He2 & L2)]; [lia|]. cbv zeta in H.
    unfold rbind at 1, rlift at 1 in H. apply bind_ok in H as (p & H1 & H). apply bind_ok in H1 as (e1 & Hx1 & H1). injection H1 as <-. rewrite He1 in Hx1. injection Hx1 as ->.
    unfold rbind at 1, rlift at 1 in H. apply bind_ok in H as (p & H1 & H). apply bind_ok in H1 as (e2 & Hx2 & H1). injection H1 as <-. replace (it - 1 + 1)%Z with it in * by lia. rewrite He2 in Hx2. injection Hx2 as ->.
    unfold rbind at 1, rlift at 1 in H. apply bind_ok in H as (p & H1 & H). apply bind_ok in H1 as (r1 & Hr1 & H1). injection H1 as <-. unfold rbind at 1, rlift at 1 in H. apply bind_ok in H as (p & H1 & H). apply bind_ok in H1 as (r2 & Hr2 & H1). injection H1 as <-.
    unfold rbind at 1, rlift at 1 in H. apply bind_ok in H as (p & H1 & H). apply bind_ok in H1 as (p1 & Hp1 & H1). injection H1 as <-. unfold rbind at 1, rlift at 1 in H. apply bind_ok in H as (p & H1 & H). apply bind_ok in H1 as (p2 & Hp2 & H1). injection H1 as <-.
    injection H as <- _ _. destruct (energies_pos lm _ _ _ V He1) as [F1 Q1]. destruct (energies_pos lm _ _ _ V He2) as [F2 _]. destruct (frac_F E e1 e2 F1 F2 Q1 L1 L2) as [FF FB].
    pose proof (dce_at_cos _ _ _ _ (C _ (atZ_In _ _ _ Hr1)) Hp1) as [FC1 C1]. pose proof (dce_at_cos _ _ _ _ (C _ (atZ_In _ _ _ Hr2)) Hp2) as [FC2 C2]. apply clamp_cos.
    destruct (lerp_F lm [fst p1] [fst p2] ((E - e1) / (e2 - e1)) 0 (fst p1 + (E - e1) / (e2 - e1) * (fst p2 - fst p1))%float) as (a0 & b0 & Ha & Hb & FV & VV); try assumption.
    - constructor; [split; assumption|constructor].
    - constructor; [split; assumption|constructor].
    - reflexivity.
    - injection Ha as <-. injection Hb as <-. split; [exact FV|]. cbn [nadd nsub nmul ndiv NumF]. rewrite VV. apply lerp_in; [apply G_BR|exact C1|exact C2|exact FB].
  Qed.

  (** ** continuous energies: whatever the table, the result is clamped *)
  Lemma ct_cos t n xi j ds mu rest : @ct_cosine _ NF t n xi j ds = Ok (mu, rest) -> PrimFloat.is_nan mu = true \/ cosine mu.
  Proof.
    intros H. unfold ct_cosine in H. unfold rbind at 1 in H. destruct ds as [|x ds]; [discriminate H|]. cbn [draw bind] in H. do 3 (unfold rbind at 1, rlift at 1 in H; apply bind_ok in H as (? & W & H); apply bind_ok in W as (? & _ & W); injection W as <-).
    cbv zeta in H. do 2 (unfold rbind at 1, rlift at 1 in H; apply bind_ok in H as (? & W & H); apply bind_ok in W as (? & _ & W); injection W as <-).
    unfold rbind at 1 in H. apply bind_ok in H as ([m ds2] & _ & H). injection H as <- _. apply clamp_any.
  Qed.
  Lemma cedc_law d E ds mu Eo rest : @cedc_sample _ NF d E ds = Ok ((mu, Eo), rest) -> PrimFloat.is_nan mu = true \/ cosine mu.
  Proof.
    intros H. unfold cedc_sample in H. destruct (negb (ce_unit d)).
    - unfold cedc_sample_nearest in H. unfold rbind at 1, rlift at 1 in H. apply bind_ok in H as (p & W & H). apply bind_ok in W as ([l f] & _ & W). injection W as <-. cbv zeta in H.
      unfold rbind at 1 in H. destruct ds as [|x ds]; [discriminate H|]. cbn [draw bind] in H. unfold rbind at 1, rlift at 1 in H; apply bind_ok in H as (? & W & H); apply bind_ok in W as (? & _ & W); injection W as <-.
      unfold rbind at 1, rlift at 1 in H; apply bind_ok in H as (? & W & H); apply bind_ok in W as ([h j] & _ & W); injection W as <-. unfold rbind at 1, rlift at 1 in H; apply bind_ok in H as (? & W & H); apply bind_ok in W as (? & _ & W); injection W as <-.
      unfold rbind at 1 in H. apply bind_ok in H as ([m ds2] & HM & H). injection H as <- _ _. eapply ct_cos. exact HM.
    - unfold cedc_sample_unit in H. unfold rbind at 1, rlift at 1 in H. apply bind_ok in H as (p & W & H). apply bind_ok in W as ([l f] & _ & W). injection W as <-. 
      unfold rbind at 1, rlift at 1 in H; apply bind_ok in H as (? & W & H); apply bind_ok in W as (uu & _ & W); injection W as <-.
      unfold rbind at 1 in H. destruct ds as [|x ds]; [discriminate H|]. cbn [draw bind] in H. unfold rbind at 1 in H. destruct ds as [|y ds]; [discriminate H|]. cbn [draw bind] in H.
      destruct (if nltb f y then _ else _) as [[t a] b]. unfold rbind at 1, rlift at 1 in H; apply bind_ok in H as (? & W & H); apply bind_ok in W as ([h j] & _ & W); injection W as <-. cbv zeta in H.
      unfold rbind at 1 in H. apply bind_ok in H as ([m ds2] & HM & H). injection H as <- _ _. eapply ct_cos. exact HM.
  Qed.
End L.
