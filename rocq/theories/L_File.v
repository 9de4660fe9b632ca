(** * A file laid out as the format says is loaded, and the object holds what the file describes (C102) *)
From Coq Require Import Reals Lra Lia List ZifyBool ZifyNat Sorting.Sorted Sorting.Permutation.
From Verif Require Import Base NumR L_Search L_SearchR M_Interp M_Tab1D M_Func M_Grid M_Packet M_PC M_OutE M_Spectra M_Kin M_Ace M_Neutron M_Laws S_Neutron S_Laws S_Urr S_File
  L_PC L_Grid L_Xs L_Ace L_Laws L_Laws2 L_Laws3 L_Laws4 L_Laws5 L_Neutron L_Neutron2 L_Neutron3 L_Urr L_Urr2 L_Tight.
Import ListNotations.
Local Open Scope R_scope.

Lemma fission_mt_iff mt : is_fission_mt mt = true <-> fission_mt mt.
Proof. rewrite fission_mts. unfold fission_mt. cbn [In]. intuition. Qed.
Lemma fission_mt_not mt : is_fission_mt mt = false <-> ~ fission_mt mt.
Proof. rewrite <- fission_mt_iff. destruct (is_fission_mt mt); intuition discriminate. Qed.
Lemma wrap_id z : (0 <= z < 2 ^ 32)%Z -> wrap32 z = z.
Proof. intros. unfold wrap32. apply Z.mod_small. lia. Qed.

(** ** the energy grid *)
Lemma hash_loop_any vals du : forall n E, exists l, @hash_loop R NumR n vals du E = Ok l.
Proof.
  induction n as [|n IH]; intros E; cbn [hash_loop]; [eexists; reflexivity|].
  destruct (lower_bound_any vals (E *~ nexp du)%num) as (k & Hk & _). rewrite Hk. cbn [bind]. destruct (IH (E *~ nexp du)%num) as (l & ->). eexists. reflexivity.
Qed.
Lemma grid_made vals NB : increasing vals -> (0 < sizeZ vals)%Z -> 0 < getR vals 0 -> exists g, @make_grid_ace R NumR vals NB = Ok g /\ g_vals g = vals.
Proof.
  intros I S P. unfold make_grid_ace. rewrite (proj2 (is_sorted_increasing _) I). cbn [guard bind]. rewrite (frontR_R vals S). cbn [bind]. rnum.
  destruct (Rleb_spec (getR vals 0) 0) as [L|_]; [lra|]. fold NumR. unfold hash_grid. rewrite (frontR_R vals S). cbn [bind]. rewrite (backR_R vals S). cbn [bind].
  match goal with |- context [@hash_loop R NumR NB vals ?du ?E] => destruct (hash_loop_any vals du NB E) as (l & ->) end. cbn [bind]. eexists. split; reflexivity.
Qed.

(** ** one reaction *)
Section One.
  Variables (a : ace R) (F : fdesc) (g : egrid R).
  Hypothesis HG : g_vals g = fd_grid F.
  Hypothesis HS : (sizeZ (fd_grid F) < 2 ^ 32)%Z.
  Lemma yield_read y f : yield_layout a y f -> read_yield a y = Ok f.
  Proof.
    intros [L|k t NBT INT energy v B E T H]; [|exact (yield_table _ _ _ _ _ _ _ _ B E T H)]. unfold read_yield. change (@nltb R NumR (nabs y) (nofZ 100)) with (Rltb (Rabs y) 100).
    rewrite (proj2 (Rltb_true _ _) L). reflexivity.
  Qed.
  Lemma xs_made i1 vals : (1 <= i1 < 2 ^ 32)%Z -> (i1 - 1 + sizeZ vals = sizeZ (fd_grid F))%Z -> vals <> [] -> Forall (fun v => 0 <= v) vals ->
    make_xs_ace i1 vals g false = Ok (mkXs g vals (i1 - 1) false) /\ (i1 - 1 < sizeZ (fd_grid F))%Z.
  Proof.
    intros U1 SV NV FV. assert (0 < sizeZ vals)%Z by (destruct vals; [elim NV; reflexivity|rewrite sizeZ_cons; pose proof (sizeZ_nonneg vals); lia]).
    unfold make_xs_ace. rewrite HG. rewrite (wrap32_id (i1 - 1)) by lia. unfold wrap64. rewrite Z.mod_small by lia. replace (sizeZ (fd_grid F) - (i1 - 1) =? sizeZ vals)%Z with true by lia. cbn [negb].
    replace (any_negative vals) with false. 2: { symmetry. apply Bool.not_true_iff_false. intros E. unfold any_negative in E. apply existsb_exists in E as (v & Iv & Ev). apply Rltb_true in Ev. rewrite Forall_forall in FV. specialize (FV v Iv). cbn in Ev. lra. }
    cbn [negb andb]. split; [reflexivity|lia].
  Qed.
  (** a cross section that starts inside the grid, fills it and is not negative *)
  Definition solid (x : xsec R) : Prop := x_single x = false /\ (0 <= x_index x < sizeZ (fd_grid F))%Z /\ (x_index x + sizeZ (x_vals x) = sizeZ (fd_grid F))%Z /\ Forall (fun v => 0 <= v) (x_vals x).
  Lemma reaction_made k d : reaction_at a (sizeZ (fd_grid F)) k d -> exists r, reaction_of_ace a k g = Ok r /\ reaction_as a F d r /\ solid (rx_xs r).
  Proof.
    intros [HE HM HY HL RX SV NV FV]. unfold reaction_of_ace. rewrite (make_reaction_eq _ _ _ _ _ _ _ _ HE), (yield_read _ _ HY). cbn [bind].
    rewrite (read_xs_block _ _ _ _ _ RX). pose proof RX as (loca & _ & _ & U1 & Un & _). destruct (xs_made _ _ U1 SV NV FV) as [Ex BI]. rewrite Ex. cbn [bind]. unfold xs_energy. cbn [x_grid x_index]. rewrite HG, Z.add_0_r.
    rewrite (atR (fd_grid F) (rd_i1 d - 1)) by lia. cbn [bind].
    assert (X : exists D, (if Reqb (rd_y d) 0 then Ok (absorption_law (rd_mt d)) else load_neutron a k (rd_mt d) (rd_q d) (a_awr a) (Rltb (rd_y d) 0)) = Ok D /\
      (rd_y d = 0 -> forall E ds, ae_sample D E ds = Throw) /\ (0 < rd_y d -> combined (rd_laws d) D) /\ (rd_y d < 0 -> exists e, combined (rd_laws d) e /\ D = cm_law (a_awr a) (rd_q d) e)).
    { destruct (Reqb_spec (rd_y d) 0) as [Y|Y]; [eexists; split; [reflexivity|]; split; [reflexivity|split; intros; lra]|].
      destruct (load_laws a k (rd_mt d) (rd_q d) (a_awr a) (Rltb (rd_y d) 0) _ (HL Y)) as (D & C & ->). eexists. split; [reflexivity|]. split; [intros; lra|]. split; intros S.
      - rewrite (proj2 (Rltb_false _ _)) by lra. exact C.
      - rewrite (proj2 (Rltb_true _ _)) by lra. exists D. split; [exact C|reflexivity]. }
    destruct X as (D & -> & D1 & D2 & D3). cbn [bind fst snd]. eexists. split; [reflexivity|]. split.
    - split; cbn [rx_mt rx_q rx_awr rx_yield rx_threshold rx_xs rx_dist]; try reflexivity; try assumption; unfold xs_at; cbn [x_single x_index x_vals].
      + intros i Hi. replace (i <? rd_i1 d - 1)%Z with true by lia. reflexivity.
      + intros j Hj. replace (rd_i1 d - 1 + j <? rd_i1 d - 1)%Z with false by lia. replace (rd_i1 d - 1 + sizeZ (rd_vals d) <=? rd_i1 d - 1 + j)%Z with false by lia.
        replace (rd_i1 d - 1 + j - (rd_i1 d - 1))%Z with j by lia. apply atR. exact Hj.
    - split; [reflexivity|]. cbn [rx_xs x_index x_vals]. split; [lia|]. split; [lia|exact FV].
  Qed.
End One.

(** ** the loops over the reactions *)
Section Loops.
  Context {T : Type} {N : Num T}.
  Variable a : ace T.
  Lemma reaction_loop_loads mk : forall n indx mts idx rs, sizeZ idx = 892%Z ->
    (forall k, (indx <= k < indx + Z.of_nat n)%Z -> exists mt, mtr_entry a k mt /\ (0 <= mt <= 891)%Z /\ (is_fission_mt mt = false -> exists r, mk mt k = Ok r)) ->
    exists x, @reaction_loop T N mk n a indx mts idx rs = Ok x.
  Proof.
    induction n as [|n IH]; intros indx mts idx rs S H; cbn [reaction_loop]; [eexists; reflexivity|]. destruct (H indx ltac:(lia)) as (mt & E & B & M). unfold mtr_entry in E. rewrite E. cbn [bind].
    assert (H' : forall k, (indx + 1 <= k < indx + 1 + Z.of_nat n)%Z -> exists mt, mtr_entry a k mt /\ (0 <= mt <= 891)%Z /\ (is_fission_mt mt = false -> exists r, mk mt k = Ok r)) by (intros; apply H; lia).
    destruct (is_fission_mt mt) eqn:FM; [apply IH; assumption|]. destruct (M eq_refl) as (r & ->). cbn [bind]. destruct (setZ_ok idx mt (sizeZ rs) ltac:(lia)) as (w & -> & W & _). cbn [bind]. apply IH; [lia|assumption].
  Qed.
  Lemma fission_loop_loads mk (P : reaction T -> Prop) : forall n indx s, (forall m r, slot s m = Some r -> P r) ->
    (forall k, (indx <= k < indx + Z.of_nat n)%Z -> exists mt, mtr_entry a k mt /\ (is_fission_mt mt = true -> exists r, mk mt k = Ok r /\ P r)) ->
    exists s', @fission_loop T N mk n a indx s = Ok s' /\ (forall m r, slot s' m = Some r -> P r).
  Proof.
    induction n as [|n IH]; intros indx s HP H; cbn [fission_loop]; [eexists; split; [reflexivity|exact HP]|]. destruct (H indx ltac:(lia)) as (mt & E & M). unfold mtr_entry in E. rewrite E. cbn [bind].
    assert (H' : forall k, (indx + 1 <= k < indx + 1 + Z.of_nat n)%Z -> exists mt, mtr_entry a k mt /\ (is_fission_mt mt = true -> exists r, mk mt k = Ok r /\ P r)) by (intros; apply H; lia).
    destruct (is_fission_mt mt) eqn:FM; [|cbn [bind]; apply IH; assumption]. destruct (M eq_refl) as (r & -> & Pr). cbn [bind]. apply IH; [|exact H'].
    intros m q. rewrite slot_set by exact FM. destruct (m =? mt)%Z; [intros Q; injection Q as <-; exact Pr|apply HP].
  Qed.
End Loops.

(** ** the fission cross section *)
Section Fis.
  Variables (F : fdesc) (g : egrid R).
  Hypothesis HG : g_vals g = fd_grid F.
  Hypothesis HS : (0 < sizeZ (fd_grid F) < 2 ^ 32)%Z.
  Notation solid := (solid F).
  Lemma zero_le : 0 <= @nofZ R NumR 0. Proof. cbn. lra. Qed.
  Lemma solid_at x i : solid x -> exists v, xs_at x i = Ok v /\ 0 <= v.
  Proof.
    intros (S1 & S2 & S3 & S4). unfold xs_at. rewrite S1. destruct (i <? x_index x)%Z eqn:E1; [eexists; split; [reflexivity|cbn; lra]|].
    rewrite Forall_forall in S4. assert (P : forall j, (0 <= j < sizeZ (x_vals x))%Z -> 0 <= getR (x_vals x) j).
    { intros j Hj. apply S4. unfold getR. apply nth_In. unfold sizeZ in Hj. lia. }
    destruct (x_index x + sizeZ (x_vals x) <=? i)%Z eqn:E2.
    - rewrite backR_R by lia. eexists. split; [reflexivity|apply P; lia].
    - rewrite atR by lia. eexists. split; [reflexivity|apply P; lia].
  Qed.
  Lemma add_ok o i v : (forall r, o = Some r -> solid (rx_xs r)) -> 0 <= v -> exists w, @add_at R NumR o i v = Ok w /\ 0 <= w.
  Proof.
    intros H V. destruct o as [r|]; cbn [add_at]; [|eexists; split; [reflexivity|exact V]]. destruct (solid_at (rx_xs r) i (H r eq_refl)) as (s & -> & Ps). cbn [bind]. eexists. split; [reflexivity|cbn; lra].
  Qed.
  Lemma fission_xs_loads (f : fis R) : (forall m r, fission_slot f m = Some r -> solid (rx_xs r)) -> fission_has f 18 = true \/ fission_has f 19 = true -> exists x, compute_fission_xs true f g = Ok x.
  Proof.
    intros HP HH. unfold compute_fission_xs. cbn [negb]. change (f18 f) with (fission_slot f 18). destruct (fission_slot f 18) as [r|] eqn:E18; [eexists; reflexivity|].
    destruct HH as [HH|HH]; [unfold fission_has in HH; rewrite E18 in HH; discriminate|]. rewrite HG. set (n := sizeZ (fd_grid F)) in *.
    match goal with |- context [zseq ?l _] => set (lo := l) end.
    assert (B : (0 <= lo < n)%Z).
    { unfold fission_has in HH. destruct (fission_slot f 19) as [r19|] eqn:E19; [|discriminate]. pose proof (HP 19%Z _ E19) as (_ & B19 & _). change (f19 f = Some r19) in E19.
      assert (K : forall o m k, fission_slot f m = o -> (0 <= k)%Z -> (0 <= lowest o k <= k)%Z).
      { intros o m k Eo Hk. unfold lowest. destruct o as [r|]; [|lia]. pose proof (HP m r Eo) as (_ & Br & _). destruct (x_index (rx_xs r) <? k)%Z eqn:EL; lia. }
      assert (K19 : (0 <= lowest (f19 f) n < n)%Z). { rewrite E19. unfold lowest. destruct (x_index (rx_xs r19) <? n)%Z eqn:EL; unfold n in *; lia. }
      pose proof (K (f20 f) 20%Z (lowest (f19 f) n) eq_refl ltac:(lia)) as K20. pose proof (K (f21 f) 21%Z _ eq_refl (proj1 K20)) as K21. pose proof (K (f38 f) 38%Z _ eq_refl (proj1 K21)) as K38. unfold lo. lia. }
    destruct (mapR_all (@fission_sum_at R NumR f) (zseq lo (Z.to_nat (n - lo)))) as (v & Hv).
    { intros i _. unfold fission_sum_at. destruct (add_ok (f19 f) i (@nofZ R NumR 0) (HP 19%Z) zero_le) as (w1 & -> & P1). cbn [bind]. destruct (add_ok (f20 f) i w1 (HP 20%Z) P1) as (w2 & -> & P2). cbn [bind].
      destruct (add_ok (f21 f) i w2 (HP 21%Z) P2) as (w3 & -> & P3). cbn [bind]. destruct (add_ok (f38 f) i w3 (HP 38%Z) P3) as (w4 & -> & P4). eexists. reflexivity. }
    rewrite Hv. cbn [bind]. unfold make_xs. rewrite HG. fold n. rewrite (wrap_id lo) by (unfold n in *; lia). replace (n <=? lo)%Z with false by lia.
    assert (NN : any_negative v = false).
    { apply any_negative_R. intros y Iy. apply In_nth_error in Iy as (j & Hj). destruct (mapR_ok _ _ _ Hv) as [LV KV]. assert (LJ : (j < length (zseq lo (Z.to_nat (n - lo))))%nat) by (rewrite <- LV; apply nth_error_Some; congruence).
      destruct (nth_error (zseq lo (Z.to_nat (n - lo))) j) as [i|] eqn:Ei; [|apply nth_error_None in Ei; lia]. destruct (KV j i Ei) as (b & Hb & Eb). rewrite Hj in Hb. injection Hb as <-. unfold fission_sum_at in Eb.
      destruct (add_ok (f19 f) i (@nofZ R NumR 0) (HP 19%Z) zero_le) as (w1 & Q1 & P1). rewrite Q1 in Eb. cbn [bind] in Eb. destruct (add_ok (f20 f) i w1 (HP 20%Z) P1) as (w2 & Q2 & P2). rewrite Q2 in Eb. cbn [bind] in Eb.
      destruct (add_ok (f21 f) i w2 (HP 21%Z) P2) as (w3 & Q3 & P3). rewrite Q3 in Eb. cbn [bind] in Eb. destruct (add_ok (f38 f) i w3 (HP 38%Z) P3) as (w4 & Q4 & P4). rewrite Q4 in Eb. injection Eb as <-. exact P4. }
    rewrite NN. destruct (mapR_ok _ _ _ Hv) as [LV _]. assert (SV : sizeZ v = (n - lo)%Z) by (unfold sizeZ at 1; rewrite LV; fold (sizeZ (zseq lo (Z.to_nat (n - lo)))); apply zseq_size; lia). rewrite SV. unfold wrap64. rewrite Z.mod_small by (unfold n in *; lia).
    rewrite Z.eqb_refl. cbn [negb]. eexists. reflexivity.
  Qed.
End Fis.

(** ** the columns *)
Lemma columns_loads a g F : (nxs a 2 = sizeZ (fd_grid F))%Z -> (0 < nxs a 2 < 2 ^ 29)%Z -> g_vals g = fd_grid F -> Forall (fun c => sizeZ c = sizeZ (fd_grid F)) [fd_total F; fd_disappearance F; fd_elastic F; fd_heating F] ->
  Forall (Forall (fun v => 0 <= v)) [fd_total F; fd_disappearance F; fd_elastic F] ->
  match fd_photon F with None => JXS a 12 = 0%Z | Some p => JXS a 12 <> 0%Z /\ sizeZ p = sizeZ (fd_grid F) /\ Forall (fun v => 0 <= v) p /\ holds a (JXS a 12 - 1) p end ->
  holds a (JXS a 1 - 1) (fd_grid F ++ fd_total F ++ fd_disappearance F ++ fd_elastic F ++ fd_heating F) ->
  read_main_xs a g = Ok (mkXs g (fd_total F) 0 false, mkXs g (fd_disappearance F) 0 false, mkXs g (fd_elastic F) 0 false, mkXs g (fd_heating F) 0 false,
    match fd_photon F with Some p => mkXs g p 0 false | None => mkXs g [0] 0 true end).
Proof.
  intros N B G S P J H. inversion S as [|? ? S1 S']; subst. inversion S' as [|? ? S2 S'']; subst. inversion S'' as [|? ? S3 S3']; subst. inversion S3' as [|? ? S4 _]; subst. clear S S' S'' S3'.
  inversion P as [|? ? P1 P']; subst. inversion P' as [|? ? P2 P'']; subst. inversion P'' as [|? ? P3 _]; subst. clear P P' P''.
  apply holds_app in H as [_ H]. apply holds_app in H as [H1 H]. apply holds_app in H as [H2 H]. apply holds_app in H as [H3 H4]. rewrite S1 in H2, H3, H4. rewrite S2 in H3, H4. rewrite S3 in H4.
  unfold read_main_xs. change (ESZ a) with (JXS a 1 - 1)%Z. rewrite (wrap_id (nxs a 2)) by lia. rewrite N. set (n := sizeZ (fd_grid F)) in *. assert (SG : sizeZ (g_vals g) = n) by (rewrite G; reflexivity).
  rewrite !wrap_id by lia.
  rewrite (xs_column a _ g (fd_total F) false) by (try lia; auto; congruence). cbn [bind].
  assert (Q2 : holds a (JXS a 1 - 1 + 2 * n) (fd_disappearance F)) by (replace (JXS a 1 - 1 + 2 * n)%Z with (JXS a 1 - 1 + n + n)%Z by lia; exact H2).
  assert (Q3 : holds a (JXS a 1 - 1 + 3 * n) (fd_elastic F)) by (replace (JXS a 1 - 1 + 3 * n)%Z with (JXS a 1 - 1 + n + n + n)%Z by lia; exact H3).
  assert (Q4 : holds a (JXS a 1 - 1 + 4 * n) (fd_heating F)) by (replace (JXS a 1 - 1 + 4 * n)%Z with (JXS a 1 - 1 + n + n + n + n)%Z by lia; exact H4).
  rewrite (xs_column a _ g (fd_disappearance F) false) by (try lia; auto; congruence). cbn [bind]. rewrite (xs_column a _ g (fd_elastic F) false) by (try lia; auto; congruence). cbn [bind].
  rewrite (xs_column a _ g (fd_heating F) true) by (try lia; auto; congruence). cbn [bind]. change (jxs a 11) with (JXS a 12). destruct (fd_photon F) as [p|].
  - destruct J as (J & SP & NP & HP). replace (JXS a 12 =? 0)%Z with false by lia. change (GPD a) with (JXS a 12 - 1)%Z. rewrite (xs_column a _ g p false) by (try lia; auto; congruence). reflexivity.
  - rewrite J. cbn [Z.eqb]. unfold make_xs_single. rnum. destruct (Rltb_spec 0 0) as [|_]; [lra|]. reflexivity.
Qed.

(** ** the whole file *)
Lemma nu_data_read a t p d : a_fissile a = true -> nu_data a t p d -> make_nus a = Ok (mkNus t p d).
Proof.
  intros Ff [f b J1 J2 Nb H|p' bp d' bd J1 J2 Np Hp Nd Hd|p' bp t' bt J1 J2 Np Nt Sb H|p' bp t' bt d' bd J1 J2 Np Nt Sb H Nd Hd].
  - exact (nus_single a f b Ff J1 J2 Nb H).
  - exact (nus_prompt_delayed a p' bp d' bd Ff J1 J2 Np Hp Nd Hd).
  - exact (nus_total_prompt a p' bp t' bt Ff J1 J2 Np Nt Sb H).
  - exact (nus_all a p' bp t' bt d' bd Ff J1 J2 Np Nt Sb H Nd Hd).
Qed.
Lemma delayed_data_read a fs : delayed_data a fs -> make_families load_delayed_law a = Ok fs.
Proof.
  intros [J|fs' bs J N S L H].
  - unfold make_families. change (BDD a) with (JXS a 25 - 1)%Z. replace (0 <? JXS a 25 - 1)%Z with false by lia. reflexivity.
  - apply (make_families_read a fs' bs); try assumption. change (BDD a) with (JXS a 25 - 1)%Z. lia.
Qed.
Lemma find_competes flag (rs : list (reaction R)) : (0 < flag)%Z -> (exists r, In r rs /\ rx_mt r = flag) -> exists x, competes flag rs x.
Proof.
  intros P H. cut (exists l r l', rs = l ++ r :: l' /\ rx_mt r = flag /\ Forall (fun q => rx_mt q <> flag) l).
  { intros (l & r & l' & E & M & Fl). exists (Some (rx_xs r)). right. split; [exact P|]. exists l, r, l'. auto. }
  clear P. induction rs as [|q rs IH]; [destruct H as (r & [] & _)|]. destruct (Z.eq_dec (rx_mt q) flag) as [E|E].
  - exists [], q, rs. split; [reflexivity|]. split; [exact E|constructor].
  - destruct IH as (l & r & l' & -> & M & Fl). { destruct H as (r & [<-|I] & M); [contradiction|]. exists r. auto. } exists (q :: l), r, l'. split; [reflexivity|]. split; [exact M|constructor; assumption].
Qed.

Section Whole.
  Variables (a : ace R) (F : fdesc) (NB : nat).
  Hypothesis D : describes a F.
  Let count : nmt a = length (fd_reactions F).
  Proof. destruct (de_reactions a F D) as (C & L & _). unfold nmt. change (nxs a 3) with (NXS a 4). rewrite wrap_id by (pose proof (sizeZ_nonneg (fd_reactions F)); lia). rewrite C. unfold sizeZ. lia. Qed.
  Lemma entry_of k : (0 <= k < Z.of_nat (nmt a))%Z -> exists d, nth_error (fd_reactions F) (Z.to_nat k) = Some d /\ reaction_at a (sizeZ (fd_grid F)) k d /\ mtr_entry a k (rd_mt d).
  Proof.
    intros B. rewrite count in B. destruct (nth_error (fd_reactions F) (Z.to_nat k)) as [d|] eqn:E; [|apply nth_error_None in E; lia]. exists d. split; [reflexivity|].
    destruct (de_reactions a F D) as (_ & _ & _ & H). specialize (H _ _ E). rewrite Z2Nat.id in H by lia. split; [exact H|]. destruct (ra_entries _ _ _ _ H) as (U & E1 & _). exact (entry_u32 _ _ _ U E1).
  Qed.
  Lemma mts_of mt : (exists k, (0 <= k < Z.of_nat (nmt a))%Z /\ mtr_entry a k mt) <-> In mt (fd_mts F).
  Proof.
    split.
    - intros (k & B & E). destruct (entry_of k B) as (d & Ed & _ & M). unfold mtr_entry in *. rewrite E in M. injection M as ->. apply in_map. eapply nth_error_In; exact Ed.
    - intros I. apply in_map_iff in I as (d & <- & I). apply In_nth_error in I as (k & E). assert (B : (k < length (fd_reactions F))%nat) by (apply nth_error_Some; congruence).
      exists (Z.of_nat k). split; [rewrite count; lia|]. destruct (entry_of (Z.of_nat k) ltac:(rewrite count; lia)) as (d' & Ed & _ & M). rewrite Nat2Z.id, E in Ed. injection Ed as <-. exact M.
  Qed.
  Let small : (0 < sizeZ (fd_grid F) < 2 ^ 32)%Z.
  Proof. destruct (de_count a F D) as [C B]. lia. Qed.

  Lemma fission_loads g : g_vals g = fd_grid F -> exists f, make_fission load_neutron absorption_law load_delayed_law a g = Ok f /\ f_nus f = mkNus (fd_nu_total F) (fd_nu_prompt F) (fd_nu_delayed F) /\ f_families f = fd_families F /\
    exists x, compute_fission_xs (a_fissile a) f g = Ok x.
  Proof.
    intros HG. pose proof (de_fission a F D) as HF. unfold make_fission. destruct (a_fissile a) eqn:EF.
    - destruct HF as (HN & HD & HR). rewrite (nu_data_read _ _ _ _ EF HN). cbn [bind]. rewrite (delayed_data_read _ _ HD). cbn [bind].
      destruct (fission_loop_loads a (fun _ i => make_reaction load_neutron absorption_law a i g) (fun r => solid F (rx_xs r)) (nmt a) 0 no_slots) as (s & Es & Ps).
      { intros m r Hn. destruct (no_slots_none _ _ Hn). }
      { intros k B. destruct (entry_of k ltac:(lia)) as (d & _ & HA & M). exists (rd_mt d). split; [exact M|]. intros _. destruct (reaction_made a F g HG (proj2 small) k d HA) as (r & Er & _ & Sr). exists r. split; assumption. }
      change (fission_loop _ _ _ _ _) with (fission_loop (fun _ i => make_reaction load_neutron absorption_law a i g) (nmt a) a 0 no_slots). rewrite Es. cbn [bind].
      destruct (fission_loop_inv load_neutron absorption_law load_delayed_law load_elastic_angle (fun _ i => make_reaction load_neutron absorption_law a i g) a) with (n := nmt a) (indx := 0%Z) (s := @no_slots R) (s' := s) as [SI K]; [|apply no_slots_inv|exact Es|].
      { intros mt i r Em Er. apply make_reaction_mt in Er. unfold mtr_entry in *. congruence. }
      assert (Full : forall m, fission_mt m -> In m (fd_mts F) -> exists r, slot s m = Some r).
      { intros m Fm I. apply (si_in _ SI). apply K. right. apply mts_of in I as (k & B & E). exists k. split; [lia|]. split; [exact E|apply fission_mt_iff; exact Fm]. }
      assert (PS : exists ps, prompt_spectrum absorption_law s = Ok ps).
      { unfold prompt_spectrum. change (s18 s) with (slot s 18). destruct (slot s 18) as [r|] eqn:E18; [eexists; reflexivity|]. destruct HR as [HR|HR].
        - destruct (Full 18%Z ltac:(left; reflexivity) HR) as (r & Q). congruence.
        - change (s19 s) with (slot s 19). change (s20 s) with (slot s 20). change (s21 s) with (slot s 21). change (s38 s) with (slot s 38).
          destruct (Full 19%Z ltac:(unfold fission_mt; cbn; tauto) (HR 19%Z ltac:(cbn; tauto))) as (r1 & ->). destruct (Full 20%Z ltac:(unfold fission_mt; cbn; tauto) (HR 20%Z ltac:(cbn; tauto))) as (r2 & ->).
          destruct (Full 21%Z ltac:(unfold fission_mt; cbn; tauto) (HR 21%Z ltac:(cbn; tauto))) as (r3 & ->). destruct (Full 38%Z ltac:(unfold fission_mt; cbn; tauto) (HR 38%Z ltac:(cbn; tauto))) as (r4 & ->).
          cbn [option_map make_sumfis bind]. eexists. reflexivity. }
      destruct PS as (ps & ->). cbn [bind]. eexists. split; [reflexivity|]. cbn [f_nus f_families]. split; [reflexivity|]. split; [reflexivity|].
      apply (fission_xs_loads F g HG small).
      + intros m r Hm. apply (Ps m r). destruct s; exact Hm.
      + destruct HR as [HR|HR].
        * left. destruct (Full 18%Z ltac:(left; reflexivity) HR) as (r & Q). unfold fission_has. change (match slot s 18 with Some _ => true | None => false end = true). rewrite Q. reflexivity.
        * right. destruct (Full 19%Z ltac:(unfold fission_mt; cbn; tauto) (HR 19%Z ltac:(cbn; tauto))) as (r & Q). unfold fission_has. change (match slot s 19 with Some _ => true | None => false end = true). rewrite Q. reflexivity.
    - destruct HF as (-> & -> & -> & ->). rewrite (nus_nonfissile a EF). cbn [bind]. eexists. split; [reflexivity|]. split; [reflexivity|]. split; [reflexivity|]. unfold compute_fission_xs. cbn [negb].
      unfold make_xs_single. rnum. destruct (Rltb_spec 0 0) as [|_]; [lra|]. eexists. reflexivity.
  Qed.
  (** the file is accepted *)
  Lemma file_loads : exists n, neutron_of_ace NB a = Ok n /\ g_vals (n_grid n) = fd_grid F /\
    (n_total n, n_disappearance n, n_elastic_xs n, n_heating n, n_photon n) = (mkXs (n_grid n) (fd_total F) 0 false, mkXs (n_grid n) (fd_disappearance F) 0 false, mkXs (n_grid n) (fd_elastic F) 0 false,
      mkXs (n_grid n) (fd_heating F) 0 false, match fd_photon F with Some p => mkXs (n_grid n) p 0 false | None => mkXs (n_grid n) [0] 0 true end) /\
    n_temperature n = a_temperature a /\ n_fissile n = a_fissile a /\ n_elastic n = fd_angle F /\
    f_nus (n_fission n) = mkNus (fd_nu_total F) (fd_nu_prompt F) (fd_nu_delayed F) /\ f_families (n_fission n) = fd_families F /\
    match fd_urr F with None => u_energy (n_urr n) = []
    | Some u => u_energy (n_urr n) = ud_energy u /\ (u_loglog (n_urr n) = true <-> ud_interp u = 5%Z) /\ (u_factors (n_urr n) = true <-> ud_factors u = 1%Z) /\ Forall2 (rows_kept (ud_n u)) (ud_tables u) (u_ptables (n_urr n)) end.
  Proof.
    destruct (de_count a F D) as [C BC]. destruct (de_energies a F D) as [I P]. destruct (grid_made (fd_grid F) NB I (proj1 small) P) as (g & Eg & HG).
    pose proof (de_esz a F D) as HE. pose proof (de_urr a F D) as HU.
    assert (GA : grid_of_ace a NB = Ok g).
    { unfold grid_of_ace. change (ESZ a) with (JXS a 1 - 1)%Z. change (nxs a 2) with (NXS a 3). rewrite C. apply holds_app in HE as [HE _]. rewrite (holds_vec _ _ _ HE). cbn [bind]. change (jxs a 22) with (JXS a 23).
      destruct (fd_urr F) as [u|]; [|rewrite HU; cbn [Z.eqb bind]; exact Eg]. destruct HU as [B NE U1 U2 _ _ _ _ _ HB]. replace (JXS a 23 =? 0)%Z with false by lia. rewrite wrap_id by lia.
      unfold urr_block in HB. apply holds_app in HB as [_ HB]. change (sizeZ [_; _; _; _; _; _]) with 6%Z in HB. destruct (ud_energy u) as [|e l]; [elim NE; reflexivity|]. cbn [app] in HB. apply holds_cons in HB as [HB _].
      rewrite HB. cbn [bind]. exact Eg. }
    pose proof (columns_loads a g F C BC HG (de_lengths a F D) (de_nonneg a F D) (de_photon a F D) HE) as GX.
    destruct (reaction_loop_loads a (fun _ i => make_reaction load_neutron absorption_law a i g) (nmt a) 0 [] no_indices []) as ([[mts idx] rs] & GL); [reflexivity| |].
    { intros k B. destruct (entry_of k ltac:(lia)) as (d & _ & HA & M). exists (rd_mt d). split; [exact M|]. split; [destruct (ra_entries _ _ _ _ HA) as ((U & _) & _); pose proof (ra_mt _ _ _ _ HA); lia|]. intros _.
      destruct (reaction_made a F g HG (proj2 small) k d HA) as (r & Er & _). exists r. exact Er. }
    destruct (de_angle a F D) as (locb & EA & BA & LA).
    assert (GE : load_elastic_angle a = Ok (fd_angle F)).
    { unfold load_elastic_angle. rewrite (entry_i32 _ _ locb ltac:(lia) EA). cbn [bind]. pose proof (adist_layout_read _ _ _ LA) as X. replace (0 <=? locb)%Z with true in X by lia. destruct (adist_of_ace a locb); try discriminate X. cbn [bind] in X. injection X as ->. reflexivity. }
    destruct (fission_loads g HG) as (f & GF & N1 & N2 & fx & GFX).
    destruct (reaction_loop_inv load_neutron absorption_law load_delayed_law load_elastic_angle (fun _ i => make_reaction load_neutron absorption_law a i g) a) with (n := nmt a) (indx := 0%Z) (mts := @nil Z) (idx := no_indices) (rs := @nil (reaction R)) (mts' := mts) (idx' := idx) (rs' := rs) as [L K];
      [|exact (no_indices_inv load_neutron absorption_law load_delayed_law)|exact GL|].
    { intros mt i r Em Er. apply make_reaction_mt in Er. unfold mtr_entry in *. congruence. }
    destruct (make_fission_slots load_neutron absorption_law load_delayed_law load_elastic_angle a g f GF) as [S _].
    destruct (lookup_answers load_neutron absorption_law load_delayed_law f mts idx rs L S 102 ltac:(lia)) as [Y1 Y2].
    assert (CX : exists h cx, has_reaction f idx 102 = Ok h /\ (if h then let! r := get_reaction f idx rs 102 in Ok (rx_xs r) else @make_xs_single R NumR (nofZ 0) g) = Ok cx).
    { destruct (in_dec Z.eq_dec 102%Z (mts ++ f_mts f)) as [Y|Y].
      - destruct (Y1 Y) as (H1 & r & H2 & _). exists true, (rx_xs r). split; [exact H1|]. rewrite H2. reflexivity.
      - destruct (Y2 Y) as (H1 & _). exists false. unfold make_xs_single. rnum. destruct (Rltb_spec 0 0) as [|_]; [lra|]. eexists. split; [exact H1|reflexivity]. }
    destruct CX as (h & cx & GH & GC).
    assert (UU : exists u, make_urr a (mkXs g (fd_elastic F) 0 false) cx fx (mkXs g (fd_heating F) 0 false) rs = Ok u /\ match fd_urr F with None => u_energy u = []
      | Some d => u_energy u = ud_energy d /\ (u_loglog u = true <-> ud_interp d = 5%Z) /\ (u_factors u = true <-> ud_factors d = 1%Z) /\ Forall2 (rows_kept (ud_n d)) (ud_tables d) (u_ptables u) end).
    { destruct (fd_urr F) as [d|].
      - destruct HU as [B NE U1 U2 HI (B1 & B2 & B3) H1 H2 (HL & HR) HB].
        assert (CO : forall flag, flag_ok (fd_mts F) flag -> exists x, competes flag rs x).
        { intros flag [Q|[Q1 Q2]]; [exists None; left; auto|]. destruct (Z.le_gt_cases flag 0) as [Q|Q]; [exists None; left; auto|]. apply find_competes; [lia|].
          assert (J : In flag mts). { apply K. right. apply mts_of in Q1 as (k & Bk & Ek). exists k. split; [lia|]. split; [exact Ek|apply fission_mt_not; exact Q2]. }
          destruct (li_in _ _ _ L flag J) as (j & r & _ & _ & Er & Mr). exists r. split; [|exact Mr]. apply atZ_inv in Er as [_ Er]. eapply nth_error_In; exact Er. }
        destruct (CO _ H1) as (xi & Cxi). destruct (CO _ H2) as (xa & Cxa).
        destruct (urr_read a (mkXs g (fd_elastic F) 0 false) cx fx (mkXs g (fd_heating F) 0 false) rs (ud_n d) (ud_interp d) (ud_inelastic d) (ud_absorption d) (ud_factors d) (ud_energy d) (ud_tables d) xi xa) as (u & Eu & V1 & V2 & V3 & _ & _ & _ & _ & _ & _ & V4); auto.
        { change (jxs a 22) with (JXS a 23). lia. }
        exists u. split; [exact Eu|]. split; [exact V1|]. split; [exact V2|]. split; [exact V3|exact V4].
      - unfold make_urr. change (jxs a 22) with (JXS a 23). rewrite HU. cbn [Z.eqb]. eexists. split; [reflexivity|]. reflexivity. }
    destruct UU as (u & GU & HU'). unfold neutron_of_ace, make_neutron. rewrite GA. cbn [bind]. rewrite GX. cbn [bind]. change (reaction_loop _ _ _ _ _ _ _) with (reaction_loop (fun _ i => make_reaction load_neutron absorption_law a i g) (nmt a) a 0 [] no_indices []). rewrite GL. cbn [bind].
    rewrite GE. cbn [bind]. rewrite GF. cbn [bind]. unfold finish. rewrite GFX. cbn [bind]. rewrite GH. cbn [bind]. rewrite GC. cbn [bind]. rewrite GU. cbn [bind].
    eexists. split; [reflexivity|]. cbn [n_grid n_total n_disappearance n_elastic_xs n_heating n_photon n_temperature n_fissile n_elastic n_fission n_urr]. split; [exact HG|]. repeat (split; [reflexivity|]). split; [exact N1|]. split; [exact N2|exact HU'].
  Qed.
  Lemma whole_at g vals i : g_vals g = fd_grid F -> sizeZ vals = sizeZ (fd_grid F) -> (0 <= i < sizeZ (fd_grid F))%Z -> @xs_at R NumR (mkXs g vals 0 false) i = Ok (getR vals i).
  Proof.
    intros _ S B. unfold xs_at. cbn [x_single x_index x_vals]. replace (i <? 0)%Z with false by lia. rewrite Z.add_0_l. replace (sizeZ vals <=? i)%Z with false by lia. rewrite Z.sub_0_r. apply atR. lia.
  Qed.
  Theorem file_carried : exists n, neutron_of_ace NB a = Ok n /\ carries a F n.
  Proof.
    destruct file_loads as (n & Hn & HG & HX & H1 & H2 & H3 & H4 & H5 & H6). exists n. split; [exact Hn|]. injection HX as X1 X2 X3 X4 X5.
    pose proof (de_lengths a F D) as SL. inversion SL as [|? ? S1 SL1]; subst. inversion SL1 as [|? ? S2 SL2]; subst. inversion SL2 as [|? ? S3 SL3]; subst. inversion SL3 as [|? ? S4 _]; subst. clear SL SL1 SL2 SL3.
    pose proof (de_photon a F D) as HP. destruct (neutron_inv _ _ _ _ _ _ _ Hn) as (mts & _ & _ & _ & HM).
    assert (MT : forall mt, In mt (n_mts n) <-> In mt (fd_mts F) /\ kept a mt).
    { intros mt. rewrite HM. unfold kept. rewrite <- mts_of, <- fission_mt_iff. split; [intros (k & B & E & X); split; [exists k; auto|exact X]|intros ((k & B & E) & X); exists k; auto]. }
    split; try assumption.
    - intros i B. rewrite X1, X2, X3, X4, X5. rewrite !whole_at by assumption. repeat (split; [reflexivity|]). destruct (fd_photon F) as [p|]; [|reflexivity]. destruct HP as (_ & SP & _). apply whole_at; assumption.
    - intros d Id Kd. assert (ID : In (rd_mt d) (n_mts n)) by (apply MT; split; [apply in_map; exact Id|exact Kd]).
      apply In_nth_error in Id as (k & Ek). assert (Bk : (k < length (fd_reactions F))%nat) by (apply nth_error_Some; congruence). destruct (de_reactions a F D) as (_ & _ & ND & HR). pose proof (HR _ _ Ek) as HA.
      assert (Pm : (0 <= rd_mt d)%Z) by (destruct (ra_entries _ _ _ _ HA) as ((U & _) & _); exact U).
      destruct (neutron_lookup _ _ _ _ _ _ _ Hn (rd_mt d) Pm) as [Y _]. destruct (Y ID) as (Q1 & r & Q2 & _). split; [exact Q1|]. exists r. split; [exact Q2|].
      destruct (which_reaction _ _ _ _ _ _ _ _ _ Hn Q2) as (k' & (Bk' & Mk' & _) & Er). destruct (entry_of k' Bk') as (d' & Ed' & HA' & M'). unfold mtr_entry in *. rewrite Mk' in M'. injection M' as M'.
      assert (EQ : Z.to_nat k' = k).
      { apply (proj1 (NoDup_nth_error (fd_mts F)) ND); [unfold fd_mts; rewrite map_length; apply nth_error_Some; congruence|]. unfold fd_mts. rewrite !(map_nth_error rd_mt) with (d := d') by assumption. rewrite (map_nth_error rd_mt k (fd_reactions F) Ek). congruence. }
      rewrite EQ, Ek in Ed'. injection Ed' as <-. destruct (reaction_made a F (n_grid n) HG (proj2 small) k' d HA') as (r' & Er' & RA & _). unfold reaction_of_ace in Er'. rewrite Er in Er'. injection Er' as <-. exact RA.
    - intros mt Pm NI. destruct (neutron_lookup _ _ _ _ _ _ _ Hn mt Pm) as [_ Y]. apply Y. rewrite MT. exact NI.
    - split; [exact (neutron_mts_sorted _ _ _ _ _ _ _ Hn)|exact MT].
  Qed.
End Whole.
