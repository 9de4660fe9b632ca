(** * From a thermal scattering file to its user's answers (C106) *)
From Coq Require Import Reals Lra Lia List Permutation ZifyBool ZifyNat.
From Verif Require Import Base NumR L_Search L_SearchR M_Interp M_Tab1D M_Grid M_PC S_PC L_PCR M_OutE S_OutE M_Ace M_Thermal S_Thermal L_Thermal L_Thermal2 L_Thermal3 L_ThermalEx S_Neutron L_Ace S_TabCtor L_TabCtor S_ThermalFile L_ThermalFile S_ThermalWhole.
Import ListNotations.
Local Open Scope R_scope.

Lemma strictly_weak l : strictly_increasing l -> increasing l.
Proof. intros H i j Hi Hij Hj. destruct (Z.eq_dec i j) as [->|N]. { apply Rle_refl. } { apply Rlt_le. apply H; lia. } Qed.
Lemma grid_tab x y : energy_grid x -> length y = length x -> (sizeZ x < 2 ^ 32)%Z -> exists t, make_tab1 LinLin x y = Ok t.
Proof.
  intros (G1 & G2 & _) L S. apply (proj1 (make_tab1_accepts LinLin x y S)). split; [auto|]. split; [intros ->; cbn in G1; lia|]. split; [apply strictly_weak, G2|exact I].
Qed.
Lemma increasing_tl (x : R) l : increasing (x :: l) -> increasing l.
Proof. intros H i j Hi Hij Hj. rewrite <- (getR_cons_S x l i), <- (getR_cons_S x l j) by lia. apply H; try lia. unfold sizeZ in *. cbn [length]. lia. Qed.
Lemma proper_ok nmu es : Forall (fun e => sizeZ (en_mu e) = nmu) es -> proper_table es -> table_ok nmu es.
Proof.
  intros F (P & C & E0 & I & V). cbv zeta in V. constructor.
  - intros ->. pose proof (vt_nonempty _ _ _ _ V) as H. cbn in H. destruct (Rlt_dec 0 0); cbn in H; [lra|lia].
  - exact I.
  - exact E0.
  - pose proof (cdf_increasing _ _ _ _ V) as H. destruct (Rlt_dec _ _); [eapply increasing_tl, H|exact H].
  - eapply Forall_impl; [|exact P]. cbn. intros e H. lra.
  - rewrite Forall_forall in *. intros e He. split; [apply F, He|]. apply (C e He).
Qed.
Lemma laid_tables a nmu locs noes tabs : laid a nmu locs noes tabs -> Forall proper_table tabs -> tables_at a nmu locs noes tabs.
Proof.
  induction 1 as [|loc es locs noes tabs U1 U2 F H _ IH]; intros P; [constructor|]. inversion P; subst. constructor; [|apply IH; assumption].
  split; [exact U1|]. split; [exact U2|]. split; [reflexivity|]. split; [apply proper_ok; assumption|exact H].
Qed.
Lemma laid_length a nmu locs noes tabs : laid a nmu locs noes tabs -> length locs = length tabs.
Proof. induction 1; cbn; congruence. Qed.
Lemma cleaned_maps es es' : Forall2 cleaned es es' -> Forall (fun e => 0 <= en_pdf e) es ->
  map en_E es' = map en_E es /\ map en_pdf es' = map en_pdf es /\ map en_cdf es' = map en_cdf es /\ first_cdf es' = first_cdf es.
Proof.
  induction 1 as [|e e' es es' (A & B & C & _) _ IH]; intros P; [auto|]. inversion P as [|? ? P1 P2]; subst. destruct (IH P2) as (I1 & I2 & I3 & _). cbn [map first_cdf].
  rewrite A, B, C, I1, I2, I3, Rmax_right by exact P1. auto.
Qed.
Lemma proper_valid nmu es t : proper_table es -> decodes nmu es t -> valid_table (ct_energy t) (ct_pdf t) (ct_cdf t) LinLin.
Proof.
  intros (P & _ & _ & _ & V) (es' & F & T1 & T2 & T3 & _). destruct (cleaned_maps _ _ F P) as (M1 & M2 & M3 & M4). rewrite T1, T2, T3. unfold completed. rewrite M4. cbv zeta in V.
  destruct (Rlt_dec _ _); cbn [map zero_entry en_E en_pdf en_cdf]; rewrite M1, M2, M3; exact V.
Qed.
Lemma Forall2_right {A B} (P : A -> Prop) (Q : A -> B -> Prop) (K : B -> Prop) l l' : Forall2 Q l l' -> Forall P l -> (forall x y, P x -> Q x y -> K y) -> forall y, In y l' -> K y.
Proof. induction 1 as [|x y l l' H _ IH]; intros F HK z [].
  - subst. inversion F; subst. eauto.
  - inversion F; subst. eapply IH; eauto. Qed.

(** two, three, four draws *)
Lemma draws2 ds : draws 2 ds -> exists x y r, ds = x :: y :: r /\ 0 <= x < 1 /\ 0 <= y < 1.
Proof. intros [L F]. destruct ds as [|x [|y r]]; cbn in L; try lia. inversion F as [|? ? ? F1]; subst. inversion F1; subst. eexists _, _, _. split; [reflexivity|]. split; assumption. Qed.
Lemma draws4 ds : draws 4 ds -> exists x y z w r, ds = x :: y :: z :: w :: r /\ 0 <= x < 1 /\ 0 <= y < 1 /\ 0 <= z < 1 /\ 0 <= w < 1.
Proof.
  intros [L F]. destruct ds as [|x [|y [|z [|w r]]]]; cbn in L; try lia. inversion F as [|? ? ? F1]; subst. inversion F1 as [|? ? ? F2]; subst. inversion F2 as [|? ? ? F3]; subst. inversion F3; subst.
  eexists _, _, _, _, _. split; [reflexivity|]. repeat split; (assumption || lra).
Qed.

(** ** the inelastic part *)
Lemma lines_whole a u f skewed rows : written a f -> meaningful f -> th_inelastic f = Lines skewed rows -> exists noe nmu, (0 < noe)%Z /\ (0 < nmu)%Z /\ (nxs a 6 = 0 \/ nxs a 6 = 1)%Z /\
  make_dce a = Ok (mkDCE (th_energy f) rows noe nmu skewed) /\ @make_cedc R NumR a u = Throw.
Proof.
  intros [W1 W2 W3 W4 W5 _] [G X MI _] Ei. rewrite Ei in *. cbn [inelastic_written inelastic_meaningful rows_of] in *. destruct W5 as (noe & nmu & N6 & N3 & B1 & N2 & B2 & F & H). destruct MI as (M1 & M2).
  destruct G as (G1 & G2 & G3). exists noe, nmu. split; [lia|]. split; [lia|]. split; [destruct skewed; auto|]. split.
  - apply (dce_read a (th_energy f) (th_xs f) rows noe nmu skewed); try assumption.
    + unfold u32. unfold sizeZ in *. lia.
    + apply strictly_weak, G2.
    + lia.
    + intros Q. specialize (M2 Q). destruct rows as [|r rows]; [exfalso; unfold sizeZ in G1; cbn in W3; lia|]. inversion M2; subst. inversion F as [|? ? [F1 _] _]; subst. lia.
    + lia.
    + rewrite Forall_forall in *. intros r Hr. destruct (F r Hr) as [S1 S2]. split; [exact S1|]. rewrite Forall_forall in *. intros l Hl. specialize (M1 r Hr). rewrite Forall_forall in M1. destruct (M1 l Hl). split; [assumption|]. split; [apply S2, Hl|assumption].
  - unfold make_cedc. replace (nxs a 6 =? 2)%Z with false by (destruct skewed; lia). reflexivity.
Qed.
Lemma tables_whole a u f tabs : written a f -> meaningful f -> th_inelastic f = Tables tabs -> nxs a 6 = 2%Z /\
  exists d, make_cedc a u = Ok d /\ ce_in d = th_energy f /\ ce_unit d = u /\ shape_cedc d /\ forall t, In t (ce_tables d) -> valid_ct (ce_nmu d) t.
Proof.
  intros [W1 W2 W3 W4 W5 _] [G X MI _] Ei. rewrite Ei in *. cbn [inelastic_written inelastic_meaningful rows_of] in *. destruct W5 as (nmu & locs & noes & N6 & N2 & B & J & La & H). destruct G as (G1 & G2 & G3).
  split; [exact N6|]. pose proof (laid_length _ _ _ _ _ La) as LL. pose proof (laid_tables _ _ _ _ _ La MI) as TA.
  destruct (cedc_read a u (th_energy f) (th_xs f) locs noes tabs nmu) as (d & E1 & E2 & E3 & E4 & E5); try assumption; try lia.
  { unfold u32. unfold sizeZ in *. lia. } { apply strictly_weak, G2. }
  exists d. split; [exact E1|]. split; [exact E2|]. split; [exact E4|]. destruct (make_cedc_shape a u d E1) as [Sh _]; [rewrite E2; lia|]. split; [exact Sh|].
  intros t Ht. split; [apply (sd_tables _ Sh), Ht|]. apply (Forall2_right proper_table (decodes nmu) (fun t => valid_table (ct_energy t) (ct_pdf t) (ct_cdf t) LinLin) tabs (ce_tables d)); [exact E5|exact MI| |exact Ht]. intros es t' P D. exact (proper_valid nmu es t' P D).
Qed.

(** ** the elastic part *)
Lemma coh_whole a edges sums : elastic_written a (Coherent edges sums) -> elastic_meaningful (Coherent edges sums) -> make_coh a = Ok (mkCoh edges sums).
Proof. intros (J & N & U & L & H) (NE & I & P & _). apply (coh_read a edges sums); assumption. Qed.
Lemma inco_whole a energy xs rows : elastic_written a (Incoherent energy xs rows) -> elastic_meaningful (Incoherent energy xs rows) -> exists t nmu, make_inco a = Ok (mkInco t nmu energy rows) /\ make_tab1 LinLin energy xs = Ok t.
Proof.
  intros (nmu & J & N & U & L & Lr & N5 & B & F & H & Hr) (G & X & Rw). destruct (grid_tab energy xs G L) as (t & Et); [unfold u32 in U; lia|]. exists t, nmu. split; [|exact Et].
  apply (inco_read a energy xs rows nmu t); try assumption. rewrite Forall_forall in *. intros r Hr'. destruct (Rw r Hr') as [R1 R2]. split; [apply F, Hr'|]. split; assumption.
Qed.
Lemma elastic_ctors a p : elastic_written a p -> elastic_meaningful p -> exists c i, make_coh a = Ok c /\ make_inco a = Ok i.
Proof.
  intros W M. destruct p as [|edges sums|energy xs rows].
  - destruct W as [J N]. destruct (make_inco_absent a (or_intror J)) as (i & Ei & _). exists (mkCoh [] []), i. split; [apply make_coh_absent, N|exact Ei].
  - pose proof (coh_whole _ _ _ W M). destruct W as (J & N & _). destruct (make_inco_absent a (or_introl N)) as (i & Ei & _). eauto.
  - destruct (inco_whole _ _ _ _ W M) as (t & nmu & E & _). destruct W as (? & _ & N & _). exists (mkCoh [] []). eexists. split; [apply make_coh_absent, N|exact E].
Qed.
Lemma sum_nonneg sums l : increasing sums -> 0 <= getR sums 0 -> (0 <= l < sizeZ sums)%Z -> 0 <= getR sums l.
Proof. intros I P L. pose proof (I 0%Z l ltac:(lia) ltac:(lia) ltac:(lia)). lra. Qed.
Lemma div_nonneg s E : 0 <= s -> 0 < E -> 0 <= s / E.
Proof. intros. apply Rmult_le_pos; [lra|]. left. apply Rinv_0_lt_compat. lra. Qed.
Lemma elastic_xs_whole a p c i E : elastic_written a p -> elastic_meaningful p -> make_coh a = Ok c -> make_inco a = Ok i ->
  exists s2 s3, inco_xs i E = Ok s2 /\ coh_xs c E = Ok s3 /\ elastic_xs p E (s2 + s3) /\ (0 < E -> 0 <= s2 + s3).
Proof.
  intros W M Ec Ei. destruct p as [|edges sums|energy xs rows].
  - destruct W as [J N]. destruct (make_inco_absent a (or_intror J)) as (i' & Ei' & _ & Z0). rewrite make_coh_absent in Ec by exact N. injection Ec as <-. rewrite Ei' in Ei. injection Ei as <-.
    exists 0, 0. split; [apply Z0|]. split; [apply coh_xs_empty; reflexivity|]. cbn. split; lra.
  - pose proof (coh_whole _ _ _ W M) as Ec'. rewrite Ec' in Ec. injection Ec as <-. destruct W as (J & N & U & L & H). destruct M as (NE & I & P & Is & Ps).
    destruct (make_inco_absent a (or_introl N)) as (i' & Ei' & _ & Z0). rewrite Ei' in Ei. injection Ei as <-. pose proof (make_coh_valid _ _ Ec') as V.
    assert (S0 : (0 < sizeZ edges)%Z) by (destruct edges; [congruence|unfold sizeZ; cbn; lia]). assert (SS : sizeZ sums = sizeZ edges) by (unfold sizeZ; lia).
    pose proof (sum_nonneg sums (sizeZ edges - 1) Is Ps ltac:(lia)) as PL.
    exists 0. destruct (Rlt_dec E (getR edges 0)) as [Lt|Ge].
    + exists 0. split; [apply Z0|]. split; [apply (coh_xs_below (mkCoh edges sums)); assumption|]. split; [left; split; [exact Lt|lra]|lra].
    + destruct (Req_dec E (getR edges 0)) as [Q|Q].
      { exists (getR sums (sizeZ edges - 1) / E). split; [apply Z0|]. split; [rewrite Q; pose proof (coh_xs_at_first _ V S0) as K; cbn [c_sum c_edges] in K; rewrite SS in K; exact K|].
        rewrite Rplus_0_l. split; [right; right; auto|]. intros PE. apply div_nonneg; assumption. }
      destruct (Req_dec E (getR edges (sizeZ edges - 1))) as [Q2|Q2].
      { exists (getR sums (sizeZ edges - 1) / E). split; [apply Z0|]. split; [rewrite Q2; exact (coh_xs_at_last _ V S0)|].
        rewrite Rplus_0_l. split; [right; right; auto|]. intros PE. apply div_nonneg; assumption. }
      assert (GT : getR edges 0 < E) by (destruct (Rtotal_order E (getR edges 0)) as [|[|]]; (contradiction || lra)). destruct (coh_xs_between _ E V S0 GT Q2) as (l & Hl & El). cbn [c_edges c_sum] in *. exists (getR sums l / E). split; [apply Z0|]. split; [exact El|]. rewrite Rplus_0_l.
      split; [right; left; split; [exact GT|]; exists l; auto|]. intros PE. apply div_nonneg; [|exact PE]. apply sum_nonneg; try assumption. destruct Hl. lia.
  - destruct (inco_whole _ _ _ _ W M) as (t & nmu & E1 & Et). rewrite E1 in Ei. injection Ei as <-. destruct W as (? & J & N & U & L & _). destruct M as ((G1 & G2 & G3) & X & _).
    rewrite make_coh_absent in Ec by exact N. injection Ec as <-. unfold u32 in U. destruct (tab1_lin energy xs t Et ltac:(lia) G2 E) as (w & Ew & Lw). exists w, 0. split; [exact Ew|]. split; [apply coh_xs_empty; reflexivity|].
    rewrite Rplus_0_r. split; [exact Lw|]. intros _. eapply lin_table_nonneg; [exact Lw|unfold sizeZ; lia|lia|]. rewrite Forall_forall in X. exact X.
Qed.
Lemma coh_sample_whole a edges sums c E ds : elastic_written a (Coherent edges sums) -> elastic_meaningful (Coherent edges sums) -> make_coh a = Ok c -> 0 < E -> draws 1 ds ->
  exists mu Eo rest, coh_sample c E ds = Ok ((mu, Eo), rest) /\ elastic_outcome (Coherent edges sums) E mu Eo.
Proof.
  intros W M Ec PE [L F]. pose proof (coh_whole _ _ _ W M) as Ec'. rewrite Ec' in Ec. injection Ec as <-. pose proof (make_coh_valid _ _ Ec') as V. destruct M as (NE & I & P & Is & Ps).
  assert (S0 : (0 < sizeZ edges)%Z) by (destruct edges; [congruence|unfold sizeZ; cbn; lia]). unfold elastic_outcome, cosine.
  destruct (Rle_dec E (getR edges 0)) as [Q|Q].
  - exists 1, E, ds. split; [apply coh_sample_below; assumption|]. split; [lra|]. split; [reflexivity|]. left. auto.
  - destruct ds as [|xi ds]; [cbn in L; lia|]. inversion F; subst. apply Rnot_le_lt in Q. destruct (coh_sample_spec (mkCoh edges sums) E xi ds V Is Ps S0 Q ltac:(assumption)) as (l & m & Hl & Hm & _ & _ & Es & B). cbn [c_edges c_sum] in *.
    eexists _, _, _. split; [exact Es|]. split; [lra|]. split; [reflexivity|]. right. exists m. destruct Hl as (Hl1 & Hl2 & _). split; [lia|]. split; [|reflexivity].
    apply Rle_lt_trans with (getR edges l); [apply I; lia|exact Hl2].
Qed.
Lemma inco_sample_whole a energy xs rows i E ds : elastic_written a (Incoherent energy xs rows) -> elastic_meaningful (Incoherent energy xs rows) -> make_inco a = Ok i -> draws 2 ds ->
  exists mu Eo rest, inco_sample i E ds = Ok ((mu, Eo), rest) /\ elastic_outcome (Incoherent energy xs rows) E mu Eo.
Proof.
  intros W M Ei D. destruct (draws2 ds D) as (x & y & r & -> & X & Y). destruct (inco_whole _ _ _ _ W M) as (t & nmu & E1 & _). rewrite E1 in Ei. injection Ei as <-. destruct M as ((G1 & _) & _).
  destruct (inco_sample_spec _ E x y r (make_inco_valid _ _ E1 ltac:(cbn; lia)) ltac:(cbn; lia) X Y) as (l & f & k & mu & _ & _ & _ & Es & _ & B). exists mu, E, r. split; [exact Es|]. split; [exact B|]. split; [reflexivity|exact Logic.I].
Qed.

(** ** the whole law *)
Lemma whole_law a u f : written a f -> meaningful f -> exists t, make_tsl a u = Ok t /\
  t_zaid t = a_zaid a /\ t_awr t = a_awr a /\ t_temp t = a_temperature a /\ tsl_max_energy t = Ok (getR (th_energy f) (sizeZ (th_energy f) - 1)) /\
  (t_has_coh t = true <-> exists edges sums, th_elastic f = Coherent edges sums) /\ (t_has_inc t = true <-> exists energy xs rows, th_elastic f = Incoherent energy xs rows) /\
  (forall E, exists s1 s2, lin_table (th_energy f) (th_xs f) E s1 /\ 0 <= s1 /\ elastic_xs (th_elastic f) E s2 /\ (0 < E -> 0 <= s2) /\ tsl_xs t E = Ok (s1 + s2)) /\
  (forall E ds, draws 4 ds -> exists mu Eo rest, inin_sample (t_inel t) E ds = Ok ((mu, Eo), rest) /\ cosine mu /\
     ((exists skewed rows, th_inelastic f = Lines skewed rows) \/ u = true \/ getR (th_energy f) 0 <= 2 * E -> 0 <= Eo)) /\
  (forall E ds, 0 < E -> draws 2 ds -> match th_elastic f with
     | NoElastic => coh_sample (t_coh t) E ds = Throw /\ inco_sample (t_inc t) E ds = Throw
     | Coherent _ _ => exists mu Eo rest, coh_sample (t_coh t) E ds = Ok ((mu, Eo), rest) /\ elastic_outcome (th_elastic f) E mu Eo
     | Incoherent _ _ _ => exists mu Eo rest, inco_sample (t_inc t) E ds = Ok ((mu, Eo), rest) /\ elastic_outcome (th_elastic f) E mu Eo end).
Proof.
  intros W M. pose proof W as [W1 W2 W3 W4 W5 W6]. pose proof M as [G X MI ME]. pose proof G as (G1 & G2 & G3).
  destruct (grid_tab (th_energy f) (th_xs f) G W2 ltac:(lia)) as (tab & Et).
  destruct (elastic_ctors a _ W6 ME) as (c & i & Ec & Ei).
  assert (U : u32 (sizeZ (th_energy f))) by (unfold u32; unfold sizeZ in *; lia).
  destruct (inin_read a u (th_energy f) (th_xs f) tab U W2 Et W4) as (R1 & R2 & _).
  assert (II : exists ae, make_inin a u = Ok (mkInin tab ae) /\ forall E ds, draws 4 ds -> exists mu Eo rest, inin_sample (mkInin tab ae) E ds = Ok ((mu, Eo), rest) /\ cosine mu /\
     ((exists skewed rows, th_inelastic f = Lines skewed rows) \/ u = true \/ getR (th_energy f) 0 <= 2 * E -> 0 <= Eo)).
  { destruct (th_inelastic f) as [skewed rows|tabs] eqn:Ti.
    - destruct (lines_whole a u f skewed rows W M Ti) as (noe & nmu & P1 & P2 & N6 & Ed & _). exists (AeDiscrete (mkDCE (th_energy f) rows noe nmu skewed)). split; [apply R1; assumption|].
      intros E ds D. destruct (draws4 ds D) as (x & y & z & w & r & -> & D1 & D2 & D3 & D4). unfold inin_sample. cbn [ii_ae]. destruct skewed.
      + destruct (dce_skew_accepted a _ E x y z (w :: r) Ed ltac:(cbn; lia) ltac:(cbn; lia) eq_refl D1 D2 D3) as (j & k & i1 & i2 & ff & mu & Eo & rest & _ & _ & _ & _ & _ & B & _ & PE & Es).
        exists mu, Eo, rest. split; [exact Es|]. split; [exact B|]. intros _. lra.
      + destruct (dce_sample_equi _ E x y (z :: w :: r) (make_dce_valid _ _ Ed ltac:(cbn; lia) ltac:(cbn; lia) ltac:(cbn; lia)) eq_refl D1 D2) as (j & k & i1 & i2 & ff & mu & Eo & _ & _ & _ & _ & B & _ & PE & Es).
        exists mu, Eo, (z :: w :: r). split; [exact Es|]. split; [exact B|]. intros _. lra.
    - destruct (tables_whole a u f tabs W M Ti) as (N6 & d & Ed & D1 & D2 & Sh & Va). exists (AeContinuous d). split; [apply R2; assumption|].
      intros E ds D. destruct (draws4 ds D) as (x & y & z & w & r & -> & B1 & B2 & B3 & B4). unfold inin_sample. cbn [ii_ae]. unfold cedc_sample. rewrite D2. destruct u; cbn [negb].
      + destruct (cedc_unit_spec d E x y z w r Sh ltac:(rewrite D1; lia) Va B1 B3 B4) as (l & ff & t1 & t2 & h & j & k & mu & Eo & _ & _ & _ & Q). cbv zeta in Q. destruct Q as (Es & _ & PE & _ & _ & _ & _ & _ & _ & _ & B).
        exists mu, Eo, r. split; [exact Es|]. split; [exact B|]. intros _. exact PE.
      + destruct (cedc_nearest_spec d E x y z (w :: r) Sh ltac:(rewrite D1; lia) Va B1 B2 B3) as (l & ff & ii & t & h & j & k & mu & Eo & _ & _ & _ & Es & _ & _ & _ & _ & _ & _ & _ & _ & B & PE).
        exists mu, Eo, (w :: r). split; [exact Es|]. split; [exact B|]. rewrite D1 in PE. intros [(? & ? & Q)|[Q|Q]]; [discriminate|discriminate|]. apply PE; assumption. }
  destruct II as (aee & Eii & Smp).
  assert (ET : exists t, make_tsl a u = Ok t). { unfold make_tsl. rewrite Eii. cbn [bind]. rewrite Ec, Ei. destruct (negb _); [destruct (_ =? _)%Z|]; eexists; reflexivity. }
  destruct ET as (t & ET). exists t. split; [exact ET|]. destruct (make_tsl_parts a u t ET) as (P1 & P2 & P3 & P4 & P5 & P6 & P7 & P8). rewrite Eii in P1. injection P1 as P1. rewrite Ei in P2. injection P2 as P2. rewrite Ec in P3. injection P3 as P3.
  rewrite <- P1, <- P2, <- P3. split; [exact P4|]. split; [exact P5|]. split; [exact P6|]. split.
  { unfold tsl_max_energy. rewrite <- P1. cbn [ii_xs]. destruct (make_inin_tab a u _ Eii) as (x' & y' & (Ne & Q1 & Q2 & Q3) & TE & _). cbn [ii_xs] in TE. rewrite TE.
    destruct (counted_read _ _ _ _ U W2 W4) as (K1 & K2 & _). rewrite K1 in Q1. injection Q1 as <-. replace (jxs a 0 - 1 + 1)%Z with (jxs a 0) in K2 by lia. rewrite K2 in Q2. injection Q2 as <-.
    rewrite backR_R by lia. reflexivity. }
  split. { rewrite P7. destruct (th_elastic f) as [|edges sums|energy xs rows]; cbn [elastic_written] in W6.
    - destruct W6 as (J & N). split; [tauto|]. intros (? & ? & Q). discriminate.
    - destruct W6 as (J & N & _). split; eauto.
    - destruct W6 as (nmu & J & N & _). split; [tauto|]. intros (? & ? & Q). discriminate. }
  split. { rewrite P8. destruct (th_elastic f) as [|edges sums|energy xs rows]; cbn [elastic_written] in W6.
    - destruct W6 as (J & N). split; [tauto|]. intros (? & ? & ? & Q). discriminate.
    - destruct W6 as (J & N & _). split; [tauto|]. intros (? & ? & ? & Q). discriminate.
    - destruct W6 as (nmu & J & N & _). split; eauto. }
  split. { intros E. destruct (tab1_lin _ _ tab Et ltac:(lia) G2 E) as (s1 & E1 & L1). destruct (elastic_xs_whole a _ c i E W6 ME Ec Ei) as (s2 & s3 & E2 & E3 & L2 & PN).
    exists s1, (s2 + s3). split; [exact L1|]. split; [eapply lin_table_nonneg; [exact L1|unfold sizeZ; lia|lia|]; rewrite Forall_forall in X; exact X|]. split; [exact L2|]. split; [exact PN|].
    unfold tsl_xs, inin_xs. rewrite <- P1, <- P2, <- P3. cbn [ii_xs]. rewrite E1. cbn [bind]. rewrite E2. cbn [bind]. rewrite E3. cbn [bind]. f_equal. rnum. lra. }
  split; [exact Smp|]. intros E ds PE D. destruct (th_elastic f) as [|edges sums|energy xs rows] eqn:Te.
  - destruct W6 as (J & N). rewrite make_coh_absent in Ec by exact N. injection Ec as <-. destruct (make_inco_absent a (or_intror J)) as (i' & Ei' & Z1 & _). rewrite Ei' in Ei. injection Ei as <-.
    split; [reflexivity|]. unfold inco_sample. rewrite Z1. reflexivity.
  - apply (coh_sample_whole a edges sums c E ds W6 ME Ec PE). destruct D as [D1 D2]. split; [lia|exact D2].
  - apply (inco_sample_whole a energy xs rows i E ds W6 ME Ei D).
Qed.
