(** * Binary64: cosines of the neutron laws *)
From Coq Require Import Reals Lra Lia ZArith Bool List ZifyBool ZifyNat.
From Flocq Require Import Core IEEE754.BinarySingleNaN.
From Flocq Require Import IEEE754.PrimFloat.
From Coq Require Import Floats.
From Verif Require Import Base NumF S_PickF S_CosF S_CosG M_Interp M_Tab1D M_Grid M_Ace M_PC M_OutE M_Spectra M_Kin M_Legendre M_Thermal M_Laws L_Search L_OrderF L_PC L_PickF L_LinF L_XsF L_CosF L_CosF2 L_CosF3 L_CosF4.
Import ListNotations.
Local Open Scope R_scope.
Local Notation rnd := (round radix2 (SpecFloat.fexp prec emax) (round_mode mode_NE)).
Local Notation fx := (SpecFloat.fexp prec emax).
Local Notation G := (generic_format radix2 fx).

Section L.
  Variable lm : Libm.
  Local Notation NF := (NumF lm).

  (** 2 xi - 1 *)
  Lemma two_xi x : unit_double x -> cosine ((@nofZ _ NF 2 * x - @nofZ _ NF 1)%float).
  Proof.
    intros U. destruct (unit_double_R x U) as [F B]. destruct (ofZ_BR 2 ltac:(lia)) as [V2 F2]. destruct (ofZ_BR 1 ltac:(lia)) as [V1 F1]. change (@nofZ _ NF) with F_ofZ.
    assert (BIG : 4 < bpow radix2 emax) by (change 4 with (bpow radix2 2); apply bpow_lt; reflexivity).
    assert (M : 0 <= rnd (BR (F_ofZ 2) * BR x) <= 2).
    { rewrite V2. split; [apply rnd_ge_G; [apply generic_format_0|]|apply rnd_le_G; [exact G_2|]]; lra. }
    destruct (mul_BR (F_ofZ 2) x F2 F) as [VM FM]; [rewrite Rabs_pos_eq; lra|].
    assert (S : -1 <= rnd (BR (F_ofZ 2 * x) - BR (F_ofZ 1)) <= 1).
    { apply rnd_in; [exact G_1|]. rewrite VM, V1. lra. }
    destruct (sub_BR (F_ofZ 2 * x)%float (F_ofZ 1) FM F1) as [VS FS]; [apply Rabs_lt; lra|].
    split; [exact FS|rewrite VS; exact S].
  Qed.

  Ltac inv H := unfold rbind at 1 in H; apply bind_ok in H as ([? ?] & ? & H).
  Ltac fin H := injection H as <- _.

  Lemma isotropic_only : cosines_only (@al_sample _ (@isotropic _ NF)).
  Proof.
    intros ds mu rest U H. cbn in H. unfold rbind at 1 in H. destruct ds as [|x ds]; [discriminate H|]. cbn [draw bind] in H. injection H as <- _. right. apply clamp_cos. apply two_xi. now inversion U.
  Qed.
  (** anything that ends with the clamp *)
  Lemma clamp_only (s : rand float float) ds mu rest : (rlet! m := s in rret (@clamp_mu _ NF m)) ds = Ok (mu, rest) -> cosine_or_nan mu.
  Proof. intros H. inv H. injection H as <- _. apply clamp_any. Qed.
  Lemma table_only t : cosines_only (@al_sample _ (@angle_table _ NF t)).
  Proof. intros ds mu rest U H. cbn [al_sample angle_table] in H. inv H. eapply clamp_only. exact H. Qed.
  Lemma bins_only b : cosines_only (@al_sample _ (@angle_bins _ NF b)).
  Proof.
    intros ds mu rest U H. cbn [al_sample angle_bins] in H. inv H. unfold rlift in H. apply bind_ok in H as (m & HM & H). injection H as <- _.
    unfold bins_sample in HM. apply bind_ok in HM as (k & _ & HM). cbv zeta in HM. apply bind_ok in HM as (lo & _ & HM). injection HM as <-. apply clamp_any.
  Qed.
  Lemma legendre_only d : cosines_only (@leg_sample _ NF d).
  Proof.
    intros ds. assert (P : forall n ds, (length ds <= n)%nat -> forall mu rest, Forall unit_double ds -> @leg_sample _ NF d ds = Ok (mu, rest) -> cosine mu).
    { clear ds. induction n; intros ds L mu rest U H.
      - destruct ds; [discriminate H|cbn in L; lia].
      - destruct ds as [|x1 [|x2 ds]]; [discriminate H..|]. inversion U as [|? ? U1 U']; subst. inversion U' as [|? ? U2 U'']; subst. cbn [leg_sample] in H. cbv zeta in H.
        destruct (_ <~ _)%num; [injection H as <- _; apply two_xi, U1|]. eapply IHn; [|exact U''|exact H]. cbn in L. lia. }
    intros mu rest U H. right. eapply P; [reflexivity|exact U|exact H].
  Qed.

  Lemma adist_only a E : (forall l, In l (ad_laws a) -> cosines_only (al_sample l)) -> cosines_only (@adist_sample _ NF a E).
  Proof.
    intros A ds mu rest U H. unfold adist_sample in H. unfold rbind at 1, rlift at 1 in H. apply bind_ok in H as (p & H1 & H). apply bind_ok in H1 as (k & _ & H1). injection H1 as <-.
    destruct (k =? 0)%Z; [|destruct (k =? _)%Z].
    - unfold rbind at 1, rlift at 1 in H. apply bind_ok in H as (p & H1 & H). apply bind_ok in H1 as (l & Hl & H1). injection H1 as <-. eapply A; [eapply atZ_In; exact Hl|exact U|exact H].
    - unfold rbind at 1, rlift at 1 in H. apply bind_ok in H as (p & H1 & H). apply bind_ok in H1 as (l & Hl & H1). injection H1 as <-. eapply A; [eapply atZ_In; exact Hl|exact U|exact H].
    - cbv zeta in H. inv H. inv H. inv H. inv H. eapply clamp_only. exact H.
  Qed.
  Lemma uc_only d E : (forall l, In l (ad_laws (uc_angle d)) -> cosines_only (al_sample l)) -> pairs_only (@uc_sample _ NF d E).
  Proof.
    intros A ds mu Eo rest U H. unfold uc_sample in H. unfold rbind at 1 in H. apply bind_ok in H as ([m r] & HM & H). inv H. injection H as <- _ _. eapply adist_only; eassumption.
  Qed.
  Lemma ea_only t : pairs_only (@ea_sample _ NF t).
  Proof.
    intros ds mu Eo rest U H. unfold ea_sample in H. inv H. inv H. cbv zeta in H. inv H. destruct b.
    - inv H. inv H. inv H. inv H. injection H as <- _ _. apply clamp_any.
    - inv H. inv H. inv H. inv H. inv H. inv H. injection H as <- _ _. apply clamp_any.
  Qed.
  Lemma kal_mu_only r a ds mu rest : @kal_mu _ NF r a ds = Ok (mu, rest) -> cosine_or_nan mu.
  Proof.
    intros H. unfold kal_mu in H. inv H. destruct (_ >~ _)%num; inv H; cbv zeta in H; injection H as <- _; apply clamp_any.
  Qed.
  Lemma tea_only d E : pairs_only (@tea_sample _ NF d E).
  Proof.
    intros ds mu Eo rest U H. unfold tea_sample in H. unfold rbind at 1, rlift at 1 in H. apply bind_ok in H as (p & H1 & H). apply bind_ok in H1 as ([l f] & _ & H1). injection H1 as <-.
    unfold rbind at 1, rlift at 1 in H. apply bind_ok in H as (p & H1 & H). apply bind_ok in H1 as (ul & _ & H1). injection H1 as <-.
    unfold rbind at 1 in H. destruct ds as [|x ds]; [discriminate H|]. cbn [draw bind] in H. inversion U as [|? ? _ U']; subst.
    destruct (_ >~ _)%num; unfold rbind at 1 in H; apply bind_ok in H as ([[m e] r] & HM & H); injection H as <- _ _; eapply ea_only; eassumption.
  Qed.
  Lemma kal_only d E : pairs_only (@kal_sample _ NF d E).
  Proof.
    intros ds mu Eo rest U H. unfold kal_sample in H. unfold rbind at 1, rlift at 1 in H. apply bind_ok in H as (p & H1 & H). apply bind_ok in H1 as ([l f] & _ & H1). injection H1 as <-.
    inv H. inv H. inv H. destruct (_ >~ _)%num; cbv zeta in H; inv H; inv H; inv H; unfold rbind at 1 in H; apply bind_ok in H as ([m r] & HM & H); injection H as <- _ _; eapply kal_mu_only; exact HM.
  Qed.
  (** the draws left after the energies of NBody are sampled *)
  Lemma draw_unit ds x rest : Forall unit_double ds -> draw ds = Ok (x, rest) -> Forall unit_double rest.
  Proof. intros U H. destruct ds; [discriminate H|]. injection H as <- <-. now inversion U. Qed.
  Ltac step U H := unfold rbind at 1 in H; apply bind_ok in H as ([? ?] & ? & H); try (match goal with D : draw ?l = Ok (_, ?r) |- _ => pose proof (draw_unit _ _ _ U D) as U; clear D end).
  Lemma nb_maxwell_unit ds x rest : Forall unit_double ds -> @nb_maxwell _ NF ds = Ok (x, rest) -> Forall unit_double rest.
  Proof.
    intros U H. unfold nb_maxwell in H.
    unfold rbind at 1 in H. apply bind_ok in H as ([a r1] & H1 & H). apply draw_unit in H1; [|exact U]. cbv zeta in H.
    unfold rbind at 1 in H. apply bind_ok in H as ([b r2] & H2 & H). apply draw_unit in H2; [|exact H1].
    unfold rbind at 1 in H. apply bind_ok in H as ([c r3] & H3 & H). apply draw_unit in H3; [|exact H2]. injection H as _ <-. exact H3.
  Qed.
  Lemma nb_y_unit n ds x rest : Forall unit_double ds -> @nb_y _ NF n ds = Ok (x, rest) -> Forall unit_double rest.
  Proof.
    intros U H. unfold nb_y in H. destruct (n =? 3)%Z; [eapply nb_maxwell_unit; eassumption|]. destruct (n =? 4)%Z; [|destruct (n =? 5)%Z].
    - do 3 (let r := fresh "r" in let Q := fresh "Q" in unfold rbind at 1 in H; apply bind_ok in H as ([? r] & Q & H); apply draw_unit in Q; [|eassumption]). injection H as _ <-. assumption.
    - do 6 (let r := fresh "r" in let Q := fresh "Q" in unfold rbind at 1 in H; apply bind_ok in H as ([? r] & Q & H); apply draw_unit in Q; [|eassumption]). injection H as _ <-. assumption.
    - injection H as _ <-. exact U.
  Qed.
  Lemma nb_only d E : pairs_only (@nb_sample _ NF d E).
  Proof.
    intros ds mu Eo rest U H. unfold nb_sample in H. cbv zeta in H. unfold rbind at 1 in H. apply bind_ok in H as ([x r1] & H1 & H). apply nb_maxwell_unit in H1; [|exact U].
    unfold rbind at 1 in H. apply bind_ok in H as ([y r2] & H2 & H). apply nb_y_unit in H2; [|exact H1]. unfold rbind at 1 in H.
    destruct r2 as [|v r2]; [discriminate H|]. cbn [draw bind] in H. injection H as <- _ _. right. apply two_xi. now inversion H2.
  Qed.
  Lemma md_loop_only E xi last : pairs_only last -> forall ds ps sum, (forall d, In d ds -> pairs_only (ae_sample d E)) -> pairs_only (@md_loop _ NF ds ps E xi sum last).
  Proof.
    intros L. induction ds as [|d ds IH]; intros ps sum A dr mu Eo rest U H.
    - cbn in H. destruct ps; eapply L; eassumption.
    - destruct ps as [|p ps]; [discriminate H|]. cbn [md_loop] in H. unfold rbind at 1, rlift at 1 in H. apply bind_ok in H as (q & H1 & H). apply bind_ok in H1 as (v & _ & H1). injection H1 as <-. cbv zeta in H.
      destruct (_ <~ _)%num; [eapply A; [left; reflexivity|exact U|exact H]|]. eapply IH; [intros; apply A; right; assumption|exact U|exact H].
  Qed.
  Lemma md_only m E : (forall d, In d (md_dists m) -> pairs_only (ae_sample d E)) -> pairs_only (@md_sample _ NF m E).
  Proof.
    intros A ds mu Eo rest U H. unfold md_sample in H. unfold rbind at 1 in H. destruct ds as [|x ds]; [discriminate H|]. cbn [draw bind] in H. inversion U as [|? ? _ U']; subst.
    eapply md_loop_only; [|exact A|exact U'|exact H]. clear - A. intros ds mu Eo rest U H. unfold rbind at 1, rlift at 1 in H. apply bind_ok in H as (p & H1 & H). apply bind_ok in H1 as (l & Hl & H1). injection H1 as <-. eapply A; [eapply atZ_In; exact Hl|exact U|exact H].
  Qed.

  (** *** from the file *)
  Lemma angle_law_only a k l : @angle_law_of_ace _ NF a k = Ok l -> cosines_only (al_sample l).
  Proof.
    intros H. unfold angle_law_of_ace in H. do 4 apply bind_ok in H as (? & _ & H). cbv zeta in H. destruct (0 <? _)%Z; [|destruct (_ <? 0)%Z].
    - apply bind_ok in H as (b & _ & H). injection H as <-. apply bins_only.
    - apply bind_ok in H as (b & _ & H). injection H as <-. apply table_only.
    - injection H as <-. apply isotropic_only.
  Qed.
  Lemma mapR_in {A B} (f : A -> res B) : forall l r, mapR f l = Ok r -> forall b, In b r -> exists a, In a l /\ f a = Ok b.
  Proof.
    induction l as [|a l IH]; intros r H b I; cbn in H; [injection H as <-; destruct I|]. apply bind_ok in H as (y & Hy & H). apply bind_ok in H as (t & Ht & H). injection H as <-. destruct I as [<-|I]; [exists a; split; [left; reflexivity|exact Hy]|]. destruct (IH _ Ht _ I) as (c & C1 & C2). exists c. split; [right; exact C1|exact C2].
  Qed.
  Lemma adist_laws a locb d : @adist_of_ace _ NF a locb = Ok d -> forall l, In l (ad_laws d) -> cosines_only (al_sample l).
  Proof.
    intros H l I. unfold adist_of_ace in H. destruct (locb <? 0)%Z; [discriminate H|]. destruct (0 <? locb)%Z.
    - do 5 apply bind_ok in H as (? & _ & H). apply bind_ok in H as (laws & HL & H). injection H as <-. cbn [ad_laws] in I. destruct (mapR_in _ _ _ HL _ I) as (k & _ & K). eapply angle_law_only. exact K.
    - injection H as <-. destruct I as [<-|[]]. apply isotropic_only.
  Qed.
  Lemma make_law_only a angle q law j d : (forall ad, angle = Some ad -> forall l, In l (ad_laws ad) -> cosines_only (al_sample l)) -> @make_law _ NF a angle q law j = Ok d -> forall E, pairs_only (ae_sample d E).
  Proof.
    intros A H E. unfold make_law in H. destruct (energy_law _ _ _ _) as [e|].
    - destruct angle as [ad|]; [|discriminate H]. apply bind_ok in H as (el & _ & H). injection H as <-. apply uc_only. apply A. reflexivity.
    - destruct (law =? 44)%Z; [apply bind_ok in H as (x & _ & H); injection H as <-; apply kal_only|]. destruct (law =? 61)%Z; [apply bind_ok in H as (x & _ & H); injection H as <-; apply tea_only|].
      destruct (law =? 66)%Z; [apply bind_ok in H as (x & _ & H); injection H as <-; apply nb_only|discriminate H].
  Qed.
  Lemma law_loop_only a angle q : (forall ad, angle = Some ad -> forall l, In l (ad_laws ad) -> cosines_only (al_sample l)) -> forall fuel i l, @law_loop _ NF fuel a angle q i = Ok l -> forall p, In p l -> forall E, pairs_only (ae_sample (fst p) E).
  Proof.
    intros A. induction fuel as [|n IH]; intros i l H p I E; [discriminate H|]. cbn [law_loop] in H. do 5 apply bind_ok in H as (? & _ & H). apply bind_ok in H as (d & HD & H). destruct (_ =? 0)%Z.
    - injection H as <-. destruct I as [<-|[]]. eapply make_law_only; eassumption.
    - apply bind_ok in H as (t & HT & H). injection H as <-. destruct I as [<-|I]; [eapply make_law_only; eassumption|eapply IH; eassumption].
  Qed.
  Lemma all_some_map {A} (l : list A) r : all_some (map (@Some A) l) = Some r -> r = l.
  Proof. revert r. induction l; intros r H; cbn in H; [congruence|]. destruct (all_some _) eqn:E; [|discriminate H]. injection H as <-. f_equal. apply IHl. reflexivity. Qed.
  Lemma load_only fuel a indx q awr d E : @load_neutron_fuel _ NF fuel a indx q awr false = Ok d -> pairs_only (ae_sample d E).
  Proof.
    intros H. unfold load_neutron_fuel in H. apply bind_ok in H as (locb & _ & H). apply bind_ok in H as (angle & HA & H). apply bind_ok in H as (locc & _ & H). apply bind_ok in H as (l & HL & H). apply bind_ok in H as (d' & HD & H). injection H as <-.
    assert (A : forall ad, angle = Some ad -> forall l, In l (ad_laws ad) -> cosines_only (al_sample l)).
    { intros ad ->. destruct (0 <=? locb)%Z; [|discriminate HA]. apply bind_ok in HA as (x & HX & HA). injection HA as <-. eapply adist_laws. exact HX. }
    pose proof (law_loop_only _ _ _ A _ _ _ HL) as P. destruct l as [|[d0 p0] [|p1 l]]; [discriminate HD| |].
    - injection HD as <-. apply (P (d0, p0)). left. reflexivity.
    - apply bind_ok in HD as (m & HM & HD). injection HD as <-. unfold make_multi in HM. do 2 apply bind_ok in HM as (? & _ & HM).
      replace (map (fun p => Some (fst p)) ((d0, p0) :: p1 :: l)) with (map (@Some _) (map fst ((d0, p0) :: p1 :: l))) in HM by apply map_map.
      destruct (all_some (map (@Some _) _)) eqn:Q; [|discriminate HM]. apply all_some_map in Q. destruct (all_some _); [|discriminate HM]. injection HM as <-. cbn [ae_sample multi_law]. apply md_only. cbn [md_dists]. rewrite Q. intros d I. apply in_map_iff in I as (p & <- & I). apply P. exact I.
  Qed.
  Lemma elastic_only a d E : @load_elastic_angle _ NF a = Ok d -> cosines_only (@adist_sample _ NF d E).
  Proof. intros H. unfold load_elastic_angle in H. apply bind_ok in H as (locb & _ & H). apply adist_only. eapply adist_laws. exact H. Qed.

  (** conversion to the laboratory frame: centre-of-mass cosine -1 (a draw of 0), outgoing energy near E/4, target mass 1 *)
  Definition wE : float := 0x1.70a91d1415264p+3%float.
  Definition wO : float := 0x1.70a91c18ff98fp+1%float.
  Lemma cm_far : lm_pow lm 2 2 = 4%float -> PrimFloat.ltb 1.5 (fst (@cm_to_lab _ NF wE 1%float (-1)%float wO)) = true /\ fin (fst (@cm_to_lab _ NF wE 1%float (-1)%float wO)).
  Proof.
    intros P. unfold cm_to_lab. cbn [fst].
    replace (@npow _ NF (@nadd _ NF 1%float (@nofZ _ NF 1)) (@nofZ _ NF 2)) with 4%float by (symmetry; exact P). split; vm_compute; reflexivity.
  Qed.
  Lemma cm_refuted : lm_pow lm 2 2 = 4%float -> exists d mu Eo, @make_dphoton _ NF 0 wO 1%float = Ok d /\ Forall unit_double [0.5; 0]%float /\
    @ae_sample _ (@cm_law _ NF 1%float 0%float (@uncor_law _ NF (mkUC (@adist_default _ NF) (@dphoton_law _ NF d)))) wE [0.5; 0]%float = Ok ((mu, Eo), []) /\ fin mu /\ PrimFloat.ltb 1.5 mu = true.
  Proof.
    intros P. destruct (cm_far P) as [Q Q']. exists (mkDP 0 (1%float) wO), (fst (@cm_to_lab _ NF wE 1%float (-1)%float wO)), (snd (@cm_to_lab _ NF wE 1%float (-1)%float wO)). split; [vm_compute; reflexivity|].
    split; [repeat constructor|]. split; [|split; assumption].
    cbn [ae_sample cm_law uncor_law]. unfold cm_sample. unfold rbind at 1.
    replace (@uc_sample _ NF _ _ _) with (@Ok (float * float * list float) (((-1)%float, wO), [])) by (vm_compute; reflexivity).
    cbn [bind]. unfold rret. rewrite <- surjective_pairing. reflexivity.
  Qed.
  Lemma cm_nan : lm_pow lm 2 2 = 4%float -> exists d mu Eo, @make_dphoton _ NF 0 0x1.1ffffffffffddp+0%float 1%float = Ok d /\
    @ae_sample _ (@cm_law _ NF 1%float 0%float (@uncor_law _ NF (mkUC (@adist_default _ NF) (@dphoton_law _ NF d)))) 4.5%float [0.5; 0]%float = Ok ((mu, Eo), []) /\ PrimFloat.is_nan mu = true /\ PrimFloat.ltb Eo 0 = true.
  Proof.
    intros P. set (r := @cm_to_lab _ NF 4.5%float 1%float (-1)%float 0x1.1ffffffffffddp+0%float). exists (mkDP 0 (1%float) 0x1.1ffffffffffddp+0%float), (fst r), (snd r). split; [vm_compute; reflexivity|]. split.
    - cbn [ae_sample cm_law uncor_law]. unfold cm_sample. unfold rbind at 1.
      replace (@uc_sample _ NF _ _ _) with (@Ok (float * float * list float) (((-1)%float, 0x1.1ffffffffffddp+0%float), [])) by (vm_compute; reflexivity).
      cbn [bind]. unfold rret. rewrite <- surjective_pairing. reflexivity.
    - subst r. unfold cm_to_lab. cbn [fst snd]. replace (@npow _ NF (@nadd _ NF 1%float (@nofZ _ NF 1)) (@nofZ _ NF 2)) with 4%float by (symmetry; exact P). split; vm_compute; reflexivity.
  Qed.
End L.
