(** * Lemmas on STNeutron: reaction lists and lookup by MT *)
From Verif Require Import Base L_Search L_PC M_Interp M_Tab1D M_Func M_Grid M_Packet M_PC M_Spectra M_Ace M_Neutron.
From Coq Require Import ZifyBool ZifyNat Sorted Permutation.
Local Open Scope Z_scope.

Lemma setZ_inv {A} (v : list A) i a w : setZ v i a = Ok w -> 0 <= i < sizeZ v.
Proof. unfold setZ. destruct (_ && _)%bool eqn:E; [lia|discriminate]. Qed.
Lemma mapR_ok {A B} (f : A -> res B) l r : mapR f l = Ok r -> length r = length l /\ forall i a, nth_error l i = Some a -> exists b, nth_error r i = Some b /\ f a = Ok b.
Proof.
  revert r. induction l as [|x t IH]; cbn; intros r H.
  - injection H as <-. split; [reflexivity|]. intros [|i] a; discriminate.
  - apply bind_ok in H as (b & Eb & H). apply bind_ok in H as (bs & Ebs & H). injection H as <-.
    destruct (IH _ Ebs) as [L K]. split; [cbn; congruence|]. intros [|i] a; cbn; intros E; [injection E as <-; eauto|apply K; exact E].
Qed.
Lemma mapR_all {A B} (f : A -> res B) l : (forall a, In a l -> exists b, f a = Ok b) -> exists r, mapR f l = Ok r.
Proof.
  induction l as [|x t IH]; cbn; intros H; [eauto|]. destruct (H x) as (b & ->); [auto|]. destruct IH as (r & ->); [auto|]. cbn. eauto.
Qed.

(** sorting *)
Lemma insert_perm x l : Permutation (insert_sorted x l) (x :: l).
Proof.
  induction l as [|y t IH]; cbn; [reflexivity|]. destruct (x <=? y); [reflexivity|].
  eapply perm_trans; [apply perm_skip, IH|apply perm_swap].
Qed.
Lemma sort_perm l : Permutation (sort_mts l) l.
Proof. induction l as [|x t IH]; cbn; [reflexivity|]. eapply perm_trans; [apply insert_perm|apply perm_skip, IH]. Qed.
Lemma insert_sorted_ok x l : Sorted Z.le l -> Sorted Z.le (insert_sorted x l).
Proof.
  induction l as [|y t IH]; cbn; intros H; [repeat constructor|]. destruct (x <=? y) eqn:E.
  - constructor; [exact H|constructor; lia].
  - inversion H; subst. constructor; [apply IH; assumption|]. destruct t as [|z t]; cbn in *; [constructor; lia|].
    destruct (x <=? z) eqn:F; constructor; [lia|]. inversion H3; subst; assumption.
Qed.
Lemma sort_sorted l : Sorted Z.le (sort_mts l).
Proof. induction l as [|x t IH]; cbn; [constructor|]. apply insert_sorted_ok, IH. Qed.

Section N.
  Context {T : Type} {N : Num T}.
  Variable load : ace T -> Z -> Z -> T -> T -> bool -> res (aelaw T).
  Variable absorb : Z -> aelaw T.
  Variable load_delayed : ace T -> Z -> res (elaw T).
  Variable load_elastic : ace T -> res (adist T).
  Notation make_reaction := (make_reaction load absorb).
  Notation make_fission := (make_fission load absorb load_delayed).
  Notation make_neutron := (make_neutron load absorb load_delayed load_elastic).

  (** MT numbers in entries [from, from+n) of the MTR block *)
  Definition mtr_entry (a : ace T) (k mt : Z) : Prop := xss_u32 a (MTR a + k) = Ok mt.
  Lemma make_reaction_mt a i g r : make_reaction a i g = Ok r -> mtr_entry a i (rx_mt r).
  Proof.
    unfold M_Neutron.make_reaction. intros H. apply bind_ok in H as (mt & Em & H). apply bind_ok in H as (q & _ & H). apply bind_ok in H as (y & _ & H).
    apply bind_ok in H as (yf & _ & H). apply bind_ok in H as (d & _ & H). apply bind_ok in H as (xt & _ & H). injection H as <-. exact Em.
  Qed.
  Lemma make_reaction_from_mt a i g r0 r : make_reaction_from a i g r0 = Ok r -> rx_mt r = rx_mt r0.
  Proof. unfold make_reaction_from. intros H. apply bind_ok in H as (u & _ & H). apply bind_ok in H as (xt & _ & H). injection H as <-. reflexivity. Qed.

  Record lookup_inv (mts idx : list Z) (rs : list (reaction T)) : Prop := {
    li_size : sizeZ idx = 892;
    li_range : forall mt, In mt mts -> 0 <= mt < 892 /\ is_fission_mt mt = false;
    li_in : forall mt, In mt mts -> exists k r, atZ idx mt = Ok k /\ 0 <= k /\ atZ rs k = Ok r /\ rx_mt r = mt;
    li_out : forall mt, 0 <= mt < 892 -> ~ In mt mts -> atZ idx mt = Ok (-1) }.
  Lemma atZ_snoc {A} (l : list A) x : atZ (l ++ [x]) (sizeZ l) = Ok x.
  Proof. rewrite atZ_app_r by lia. rewrite Z.sub_diag. reflexivity. Qed.
  Lemma lookup_step mts idx rs mt r idx' : lookup_inv mts idx rs -> is_fission_mt mt = false -> rx_mt r = mt -> setZ idx mt (sizeZ rs) = Ok idx' ->
    lookup_inv (mts ++ [mt]) idx' (rs ++ [r]).
  Proof.
    intros [S R I O] F M E. pose proof (setZ_inv _ _ _ _ E) as B. destruct (setZ_ok idx mt (sizeZ rs) B) as (w & Ew & W1 & W2 & W3).
    rewrite E in Ew. injection Ew as <-. split.
    - lia.
    - intros m Hm. apply in_app_iff in Hm as [Hm|[<-|[]]]; [apply R; exact Hm|split; [lia|exact F]].
    - intros m Hm. destruct (Z.eq_dec m mt) as [->|D].
      + exists (sizeZ rs), r. split; [exact W2|]. split; [unfold sizeZ; lia|]. split; [apply atZ_snoc|exact M].
      + apply in_app_iff in Hm as [Hm|[<-|[]]]; [|contradiction]. destruct (I m Hm) as (k & r' & K1 & K2 & K3 & K4).
        exists k, r'. rewrite W3 by assumption. split; [exact K1|]. split; [exact K2|]. split; [|exact K4].
        rewrite atZ_app_l; [exact K3|]. apply atZ_inv in K3. lia.
    - intros m Hm Hn. rewrite in_app_iff in Hn. rewrite W3 by (intros ->; apply Hn; right; left; reflexivity). apply O; tauto.
  Qed.
  (** every reaction the loop stores came from [mk] *)
  Lemma reaction_loop_inv mk a : (forall mt i r, mtr_entry a i mt -> mk mt i = Ok r -> rx_mt r = mt) ->
    forall n indx mts idx rs mts' idx' rs', lookup_inv mts idx rs -> reaction_loop mk n a indx mts idx rs = Ok (mts', idx', rs') ->
    lookup_inv mts' idx' rs' /\ (forall mt, In mt mts' <-> In mt mts \/ exists k, indx <= k < indx + Z.of_nat n /\ mtr_entry a k mt /\ is_fission_mt mt = false).
  Proof.
    intros Hmk. induction n as [|n IH]; cbn [reaction_loop]; intros indx mts idx rs mts' idx' rs' L E.
    - injection E as <- <- <-. split; [exact L|]. intros mt. split; [auto|]. intros [H|(k & K & _)]; [exact H|lia].
    - apply bind_ok in E as (mt & Em & E). destruct (is_fission_mt mt) eqn:F.
      + destruct (IH _ _ _ _ _ _ _ L E) as [L' H]. split; [exact L'|]. intros m. rewrite H. split.
        * intros [A|(k & K1 & K2)]; [auto|]. right. exists k. split; [lia|exact K2].
        * intros [A|(k & K1 & K2 & K3)]; [auto|]. destruct (Z.eq_dec k indx) as [->|D].
          { unfold mtr_entry in K2. rewrite Em in K2. injection K2 as <-. congruence. }
          right. exists k. split; [lia|auto].
      + apply bind_ok in E as (r & Er & E). apply bind_ok in E as (idx1 & Ei & E).
        destruct (IH _ _ _ _ _ _ _ (lookup_step _ _ _ _ _ _ L F (Hmk _ _ _ Em Er) Ei) E) as [L' H]. split; [exact L'|].
        intros m. rewrite H, in_app_iff. cbn [In]. split.
        * intros [[A|[<-|[]]]|(k & K1 & K2)]; [auto|right; exists indx; split; [lia|split; [exact Em|exact F]]|right; exists k; split; [lia|exact K2]].
        * intros [A|(k & K1 & K2 & K3)]; [auto|]. destruct (Z.eq_dec k indx) as [->|D].
          { unfold mtr_entry in K2. rewrite Em in K2. injection K2 as <-. auto. }
          right. exists k. split; [lia|auto].
  Qed.
  Lemma no_indices_inv : lookup_inv [] no_indices [].
  Proof.
    split; [reflexivity|intros ? []|intros ? []|]. intros mt H _. unfold no_indices. rewrite (atZ_nth (-1)) by (unfold sizeZ; rewrite repeat_length; lia).
    f_equal. destruct (Nat.lt_ge_cases (Z.to_nat mt) 892) as [L|L]; [|lia]. apply nth_repeat.
  Qed.

  (** fission slots *)
  Lemma fission_mts mt : is_fission_mt mt = true <-> mt = 18 \/ mt = 19 \/ mt = 20 \/ mt = 21 \/ mt = 38.
  Proof. clear load absorb load_delayed load_elastic. unfold is_fission_mt. lia. Qed.
  Definition slot (s : slots T) (mt : Z) : option (reaction T) := get_slot (s18 s) (s19 s) (s20 s) (s21 s) (s38 s) mt.
  Record slots_inv (s : slots T) : Prop := {
    si_range : forall mt, In mt (s_mts s) -> is_fission_mt mt = true;
    si_in : forall mt, In mt (s_mts s) <-> exists r, slot s mt = Some r;
    si_mt : forall mt r, slot s mt = Some r -> rx_mt r = mt }.
  Lemma slot_set (s : slots T) mt (r : reaction T) m : is_fission_mt mt = true -> slot (set_slot s mt r) m = if m =? mt then Some r else slot s m.
  Proof.
    clear load absorb load_delayed load_elastic.
    intros F. apply fission_mts in F. unfold slot, set_slot, get_slot.
    destruct F as [F|[F|[F|[F|F]]]]; subst mt; cbn [Z.eqb Pos.eqb s18 s19 s20 s21 s38];
      destruct (m =? 18) eqn:E1; [replace m with 18 by lia; reflexivity| |replace m with 18 by lia; reflexivity| |replace m with 18 by lia; reflexivity| |replace m with 18 by lia; reflexivity| |replace m with 18 by lia; reflexivity| ];
      (destruct (m =? 19) eqn:E2; [replace m with 19 by lia; reflexivity|]);
      (destruct (m =? 20) eqn:E3; [replace m with 20 by lia; reflexivity|]);
      (destruct (m =? 21) eqn:E4; [replace m with 21 by lia; reflexivity|]);
      (destruct (m =? 38) eqn:E5; [replace m with 38 by lia; reflexivity|]);
      rewrite ?E1, ?E2, ?E3, ?E4, ?E5; reflexivity.
  Qed.
  Lemma set_slot_mts (s : slots T) mt (r : reaction T) : is_fission_mt mt = true -> s_mts (set_slot s mt r) = s_mts s ++ [mt].
  Proof. intros F. apply fission_mts in F. destruct F as [F|[F|[F|[F|F]]]]; subst mt; reflexivity. Qed.
  Lemma slots_step (s : slots T) mt (r : reaction T) : slots_inv s -> is_fission_mt mt = true -> rx_mt r = mt -> slots_inv (set_slot s mt r).
  Proof.
    intros [R I M] F E. split.
    - intros m. rewrite set_slot_mts by exact F. rewrite in_app_iff. intros [H|[<-|[]]]; auto.
    - intros m. rewrite set_slot_mts, slot_set by exact F. rewrite in_app_iff. cbn [In]. destruct (m =? mt) eqn:D.
      + split; [eauto|]. intros _. right; left; lia.
      + rewrite I. split; [intros [H|[H|[]]]; [exact H|lia]|auto].
    - intros m r'. rewrite slot_set by exact F. destruct (m =? mt) eqn:D; [|apply M]. intros H. injection H as <-. lia.
  Qed.
  Lemma fission_loop_inv mk a : (forall mt i r, mtr_entry a i mt -> mk mt i = Ok r -> rx_mt r = mt) ->
    forall n indx s s', slots_inv s -> fission_loop mk n a indx s = Ok s' ->
    slots_inv s' /\ (forall mt, In mt (s_mts s') <-> In mt (s_mts s) \/ exists k, indx <= k < indx + Z.of_nat n /\ mtr_entry a k mt /\ is_fission_mt mt = true).
  Proof.
    intros Hmk. induction n as [|n IH]; cbn [fission_loop]; intros indx s s' L E.
    - injection E as <-. split; [exact L|]. intros mt. split; [auto|]. intros [H|(k & K & _)]; [exact H|lia].
    - apply bind_ok in E as (mt & Em & E). apply bind_ok in E as (s1 & E1 & E).
      assert (L1 : slots_inv s1 /\ forall m, In m (s_mts s1) <-> In m (s_mts s) \/ (m = mt /\ is_fission_mt mt = true)).
      { destruct (is_fission_mt mt) eqn:F.
        - apply bind_ok in E1 as (r & Er & E1). injection E1 as <-. split; [apply slots_step; eauto|].
          intros m. rewrite set_slot_mts by exact F. rewrite in_app_iff. cbn [In]. intuition.
        - injection E1 as <-. split; [exact L|]. intros m. intuition congruence. }
      destruct L1 as [L1 K1]. destruct (IH _ _ _ L1 E) as [L' H]. split; [exact L'|]. intros m. rewrite H, K1. split.
      + intros [[A|[-> F]]|(k & B1 & B2)]; [auto|right; exists indx; split; [lia|split; [exact Em|exact F]]|right; exists k; split; [lia|exact B2]].
      + intros [A|(k & B1 & B2 & B3)]; [auto|]. destruct (Z.eq_dec k indx) as [->|D].
        { unfold mtr_entry in B2. rewrite Em in B2. injection B2 as <-. auto. }
        right. exists k. split; [lia|auto].
  Qed.
  Lemma no_slots_inv : slots_inv no_slots.
  Proof.
    split; cbn; [intros ? []| |].
    - intros mt. split; [intros []|]. intros (r & H). unfold slot, get_slot in H. cbn in H. repeat destruct (_ =? _) in H; discriminate.
    - intros mt r H. unfold slot, get_slot in H. cbn in H. repeat destruct (_ =? _) in H; discriminate.
  Qed.

  (** what the lookups answer on an object satisfying both invariants *)
  Definition fis_slots (f : fis T) : slots T := mkSlots (f18 f) (f19 f) (f20 f) (f21 f) (f38 f) (f_mts f).
  Lemma lookup_answers f mts idx rs : lookup_inv mts idx rs -> slots_inv (fis_slots f) -> forall mt, 0 <= mt ->
    (In mt (mts ++ f_mts f) -> has_reaction f idx mt = Ok true /\ exists r, get_reaction f idx rs mt = Ok r /\ rx_mt r = mt) /\
    (~ In mt (mts ++ f_mts f) -> has_reaction f idx mt = Ok false /\ get_reaction f idx rs mt = Throw).
  Proof.
    intros [S R I O] [SR SI SM] mt Hmt. unfold get_reaction, has_reaction. rewrite in_app_iff.
    destruct (is_fission_mt mt) eqn:F.
    - assert (Hn : ~ In mt mts) by (intros H; destruct (R _ H); congruence).
      specialize (SI mt). specialize (SM mt). change (slot (fis_slots f) mt) with (fission_slot f mt) in SI, SM. cbn [fis_slots s_mts] in SI.
      unfold fission_reaction, fission_has. destruct (fission_slot f mt) as [r|] eqn:E; cbn [bind negb].
      + split; [|intros H; exfalso; apply H; right; apply SI; eauto]. intros _. split; [reflexivity|]. exists r. auto.
      + split; [|auto]. intros [H|H]; [contradiction|]. apply SI in H as (r & H). discriminate.
    - assert (Hn : ~ In mt (f_mts f)) by (intros H; rewrite (SR mt H) in F; discriminate).
      destruct (891 <? mt) eqn:B.
      + cbn [bind negb]. split; [|auto]. intros [H|H]; [destruct (R _ H); lia|contradiction].
      + split.
        * intros [H|H]; [|contradiction]. destruct (I mt H) as (k & r & K1 & K2 & K3 & K4). rewrite K1. cbn [bind].
          replace (k <? 0) with false by lia. cbn [negb]. split; [reflexivity|]. exists r. auto.
        * intros H. rewrite O by (lia || tauto). cbn. auto.
  Qed.

  Lemma make_fission_slots a g f : make_fission a g = Ok f -> slots_inv (fis_slots f) /\
    forall mt, In mt (f_mts f) <-> a_fissile a = true /\ is_fission_mt mt = true /\ exists k, 0 <= k < Z.of_nat (nmt a) /\ mtr_entry a k mt.
  Proof.
    unfold M_Neutron.make_fission. intros H. apply bind_ok in H as (ns & _ & H). destruct (a_fissile a).
    - apply bind_ok in H as (fam & _ & H). apply bind_ok in H as (s & Es & H). apply bind_ok in H as (ps & _ & H). injection H as <-. cbn.
      destruct (fission_loop_inv (fun _ i => make_reaction a i g) a) with (n := nmt a) (indx := 0) (s := @no_slots T) (s' := s) as [L K];
        [|apply no_slots_inv|exact Es|].
      { intros mt i r Em Er. apply make_reaction_mt in Er. unfold mtr_entry in *. congruence. }
      split; [unfold fis_slots; cbn; destruct s; exact L|]. intros mt. rewrite K. cbn. split.
      + intros [[]|(k & K1 & K2 & K3)]. eauto.
      + intros (_ & F & k & K1 & K2). right. eauto.
    - injection H as <-. cbn. split; [exact no_slots_inv|]. intros mt. split; [intros []|intros [H _]; discriminate].
  Qed.

  Lemma finish_fields a g temp fissile xs el f mts idx rs n : finish a g temp fissile xs el f mts idx rs = Ok n ->
    n_mts n = sort_mts (mts ++ f_mts f) /\ n_indices n = idx /\ n_reactions n = rs /\ n_fission n = f /\ n_grid n = g /\
    (n_total n, n_disappearance n, n_elastic_xs n, n_heating n, n_photon n) = xs /\ compute_fission_xs fissile f g = Ok (n_fission_xs n).
  Proof.
    unfold finish. destruct xs as [[[[tot dis] ela] hea] pho]. intros H. apply bind_ok in H as (fx & Ef & H). apply bind_ok in H as (h & _ & H).
    apply bind_ok in H as (cx & _ & H). apply bind_ok in H as (u & _ & H). injection H as <-. cbn. repeat (split; [reflexivity|]). exact Ef.
  Qed.
  Lemma neutron_parts NB a n : make_neutron NB a = Ok n -> exists g xs mts idx rs f, grid_of_ace a NB = Ok g /\ read_main_xs a g = Ok xs /\
    reaction_loop (fun _ i => make_reaction a i g) (nmt a) a 0 [] no_indices [] = Ok (mts, idx, rs) /\ make_fission a g = Ok f /\
    finish a g (a_temperature a) (a_fissile a) xs (n_elastic n) f mts idx rs = Ok n.
  Proof.
    unfold M_Neutron.make_neutron. intros H. apply bind_ok in H as (g & Eg & H). apply bind_ok in H as (xs & Ex & H). apply bind_ok in H as ([[mts idx] rs] & El & H).
    apply bind_ok in H as (el & Ee & H). apply bind_ok in H as (f & Ef & H). exists g, xs, mts, idx, rs, f.
    repeat (split; [assumption|]). replace (n_elastic n) with el; [exact H|].
    unfold finish in H. destruct xs as [[[[tot dis] ela] hea] pho]. apply bind_ok in H as (fx & _ & H). apply bind_ok in H as (h & _ & H).
    apply bind_ok in H as (cx & _ & H). apply bind_ok in H as (u & _ & H). injection H as <-. reflexivity.
  Qed.
  Lemma neutron_inv NB a n : make_neutron NB a = Ok n -> exists mts, lookup_inv mts (n_indices n) (n_reactions n) /\ slots_inv (fis_slots (n_fission n)) /\
    n_mts n = sort_mts (mts ++ f_mts (n_fission n)) /\
    forall mt, In mt (n_mts n) <-> exists k, 0 <= k < Z.of_nat (nmt a) /\ mtr_entry a k mt /\ (is_fission_mt mt = true -> a_fissile a = true).
  Proof.
    intros H. destruct (neutron_parts _ _ _ H) as (g & xs & mts & idx & rs & f & Eg & Ex & El & Ef & En).
    destruct (finish_fields _ _ _ _ _ _ _ _ _ _ _ En) as (F1 & F2 & F3 & F4 & F5 & F6 & F7).
    destruct (reaction_loop_inv (fun _ i => make_reaction a i g) a) with (n := nmt a) (indx := 0) (mts := @nil Z) (idx := no_indices) (rs := @nil (reaction T)) (mts' := mts) (idx' := idx) (rs' := rs) as [L K];
      [|apply no_indices_inv|exact El|].
    { intros mt i r Em Er. apply make_reaction_mt in Er. unfold mtr_entry in *. congruence. }
    destruct (make_fission_slots _ _ _ Ef) as [S Q]. exists mts. rewrite F2, F3, F4. repeat (split; [assumption|]).
    intros mt. rewrite F1. split.
    - intros I. apply (Permutation_in _ (sort_perm _)) in I. apply in_app_iff in I as [I|I].
      + apply K in I as [[]|(k & K1 & K2 & K3)]. exists k. split; [lia|]. split; [exact K2|congruence].
      + apply Q in I as (Q1 & Q2 & k & Q3 & Q4). exists k. auto.
    - intros (k & K1 & K2 & K3). apply (Permutation_in _ (Permutation_sym (sort_perm _))). apply in_app_iff.
      destruct (is_fission_mt mt) eqn:F; [right; apply Q; split; [exact (K3 eq_refl)|split; [exact F|exists k; auto]]|left; apply K; right; exists k; split; [lia|auto]].
  Qed.
  Lemma neutron_lookup NB a n : make_neutron NB a = Ok n -> forall mt, 0 <= mt ->
    (In mt (n_mts n) -> neutron_has n mt = Ok true /\ exists r, neutron_reaction n mt = Ok r /\ rx_mt r = mt) /\
    (~ In mt (n_mts n) -> neutron_has n mt = Ok false /\ neutron_reaction n mt = Throw).
  Proof.
    intros H mt Hmt. destruct (neutron_inv _ _ _ H) as (mts & L & S & M & _). unfold neutron_has, neutron_reaction.
    assert (P : In mt (n_mts n) <-> In mt (mts ++ f_mts (n_fission n))).
    { rewrite M. split; apply Permutation_in; [|apply Permutation_sym]; apply sort_perm. }
    rewrite P. apply lookup_answers; assumption.
  Qed.
  Lemma neutron_mts_sorted NB a n : make_neutron NB a = Ok n -> Sorted Z.le (n_mts n).
  Proof. intros H. destruct (neutron_inv _ _ _ H) as (mts & _ & _ & M & _). rewrite M. apply sort_sorted. Qed.
  (** a MT outside the index array is an out-of-range write *)
  Lemma reaction_loop_big mk a : forall n indx mts idx rs k mt, sizeZ idx = 892 -> indx <= k < indx + Z.of_nat n -> mtr_entry a k mt -> is_fission_mt mt = false -> 892 <= mt ->
    forall x, reaction_loop mk n a indx mts idx rs <> Ok x.
  Proof.
    induction n as [|n IH]; cbn [reaction_loop]; intros indx mts idx rs k mt S K M F B x E; [lia|].
    apply bind_ok in E as (m & Em & E). destruct (Z.eq_dec k indx) as [->|D].
    - unfold mtr_entry in M. rewrite Em in M. injection M as ->. rewrite F in E. apply bind_ok in E as (r & _ & E). apply bind_ok in E as (i & Ei & _).
      apply setZ_inv in Ei. lia.
    - destruct (is_fission_mt m); [revert E; apply (IH (indx + 1) _ _ _ k mt); auto; lia|]. apply bind_ok in E as (r & _ & E). apply bind_ok in E as (i & Ei & E).
      pose proof (setZ_inv _ _ _ _ Ei) as B2. destruct (setZ_ok idx m (sizeZ rs) B2) as (w & Ew & W1 & _). rewrite Ei in Ew. injection Ew as <-.
      revert E; apply (IH (indx + 1) _ _ _ k mt); auto; lia.
  Qed.

  (** ** the second constructor and chains of it *)
  Lemma reaction_loop_mts mk a : forall n indx mts idx rs mts' idx' rs', reaction_loop mk n a indx mts idx rs = Ok (mts', idx', rs') ->
    exists new, mts' = mts ++ new /\ forall mts2, reaction_loop mk n a indx mts2 idx rs = Ok (mts2 ++ new, idx', rs').
  Proof.
    induction n as [|n IH]; cbn [reaction_loop]; intros indx mts idx rs mts' idx' rs' E.
    - injection E as <- <- <-. exists []. split; [symmetry; apply app_nil_r|]. intros. rewrite app_nil_r. reflexivity.
    - apply bind_ok in E as (mt & Em & E). rewrite Em. cbn [bind]. destruct (is_fission_mt mt).
      + apply IH; exact E.
      + apply bind_ok in E as (r & Er & E). apply bind_ok in E as (idx1 & Ei & E). rewrite Er. cbn [bind]. rewrite Ei. cbn [bind].
        destruct (IH _ _ _ _ _ _ _ E) as (new & E1 & E2). exists (mt :: new). split; [rewrite E1, <- app_assoc; reflexivity|].
        intros mts2. rewrite E2, <- app_assoc. reflexivity.
  Qed.
  (** the objects a program can hold: read from a file, or derived from another object and a file *)
  Inductive neutron_obj : neutron T -> Prop :=
  | obj_file NB a n : make_neutron NB a = Ok n -> neutron_obj n
  | obj_from NB a n0 n : neutron_obj n0 -> make_neutron_from absorb NB a n0 = Ok n -> neutron_obj n.
  Lemma slots_from a g f0 f : slots_inv (fis_slots f0) -> make_fission_from absorb a g f0 = Ok f -> slots_inv (fis_slots f).
  Proof.
    intros S0. unfold make_fission_from. destruct (a_fissile a); intros H.
    - apply bind_ok in H as (s & Es & H). apply bind_ok in H as (ps & _ & H). injection H as <-.
      unfold fis_slots; cbn. change (slots_inv (mkSlots (s18 s) (s19 s) (s20 s) (s21 s) (s38 s) (s_mts s))).
      match type of Es with fission_loop ?mk _ _ _ _ = _ => assert (L := fission_loop_inv mk a) end.
      assert (L' : slots_inv s); [|destruct s; exact L'].
      refine (proj1 (L _ (nmt a) 0 no_slots s no_slots_inv Es)).
      intros mt i r Em Er. cbn beta in Er. destruct (fission_slot f0 mt) as [r0|] eqn:E; [|discriminate].
      apply make_reaction_from_mt in Er. rewrite Er. apply (si_mt _ S0). exact E.
    - injection H as <-. exact no_slots_inv.
  Qed.
  Lemma obj_inv n : neutron_obj n -> exists pre mts, Forall (eq 0) pre /\ lookup_inv mts (n_indices n) (n_reactions n) /\ slots_inv (fis_slots (n_fission n)) /\
    n_mts n = sort_mts ((pre ++ mts) ++ f_mts (n_fission n)).
  Proof.
    induction 1 as [NB a n H|NB a n0 n O IH H].
    - destruct (neutron_inv _ _ _ H) as (mts & L & S & M & _). exists [], mts. auto.
    - destruct IH as (pre0 & mts0 & _ & L0 & S0 & _). unfold make_neutron_from in H.
      apply bind_ok in H as (g & Eg & H). apply bind_ok in H as (xs & Ex & H). apply bind_ok in H as ([[mts idx] rs] & El & H).
      apply bind_ok in H as (f & Ef & H). destruct (finish_fields _ _ _ _ _ _ _ _ _ _ _ H) as (F1 & F2 & F3 & F4 & F5 & F6 & F7).
      destruct (reaction_loop_mts _ _ _ _ _ _ _ _ _ _ El) as (new & -> & El'). specialize (El' []). cbn [app] in El'.
      exists (repeat 0 (nmt a)), new. split; [apply Forall_forall; intros x Hx; symmetry; apply repeat_spec in Hx; exact Hx|].
      rewrite F1, F2, F3, F4. split; [|split; [eapply slots_from; eauto|reflexivity]].
      match type of El' with reaction_loop ?mk _ _ _ _ _ _ = _ => assert (L := reaction_loop_inv mk a) end.
      refine (proj1 (L _ (nmt a) 0 [] no_indices [] new idx rs no_indices_inv El')).
      intros mt i r Em Er. cbn beta in Er. apply bind_ok in Er as (k & Ek & Er). apply bind_ok in Er as (r0 & Er0 & Er).
      apply make_reaction_from_mt in Er. rewrite Er.
      assert (Hmt : 0 <= mt < 892). { apply atZ_inv in Ek. pose proof (li_size _ _ _ L0). lia. }
      destruct (in_dec Z.eq_dec mt mts0) as [I|I].
      + destruct (li_in _ _ _ L0 mt I) as (k' & r' & K1 & K2 & K3 & K4). rewrite Ek in K1. injection K1 as <-. congruence.
      + rewrite (li_out _ _ _ L0 mt Hmt I) in Ek. injection Ek as <-. discriminate.
  Qed.
  Lemma obj_lookup n : neutron_obj n -> forall mt, 0 < mt ->
    (In mt (n_mts n) -> neutron_has n mt = Ok true /\ exists r, neutron_reaction n mt = Ok r /\ rx_mt r = mt) /\
    (~ In mt (n_mts n) -> neutron_has n mt = Ok false /\ neutron_reaction n mt = Throw).
  Proof.
    intros O mt Hmt. destruct (obj_inv n O) as (pre & mts & P0 & L & S & M). unfold neutron_has, neutron_reaction.
    assert (P : In mt (n_mts n) <-> In mt (mts ++ f_mts (n_fission n))).
    { rewrite M. split; intros I.
      - apply (Permutation_in _ (sort_perm _)) in I. rewrite !in_app_iff in *. destruct I as [[I|I]|I]; auto. rewrite Forall_forall in P0. apply P0 in I. lia.
      - apply (Permutation_in _ (Permutation_sym (sort_perm _))). rewrite !in_app_iff in *. tauto. }
    rewrite P. apply lookup_answers; try assumption; lia.
  Qed.
  Lemma obj_safe n : neutron_obj n -> forall mt, 0 <= mt -> exists b, neutron_has n mt = Ok b /\
    (b = true -> exists r, neutron_reaction n mt = Ok r /\ rx_mt r = mt) /\ (b = false -> neutron_reaction n mt = Throw).
  Proof.
    intros O mt Hmt. destruct (obj_inv n O) as (pre & mts & P0 & L & S & M).
    destruct (lookup_answers (n_fission n) mts (n_indices n) (n_reactions n) L S mt Hmt) as [A B].
    destruct (in_dec Z.eq_dec mt (mts ++ f_mts (n_fission n))) as [I|I].
    - destruct (A I) as [A1 A2]. exists true. split; [exact A1|]. split; [intros _; exact A2|discriminate].
    - destruct (B I) as [B1 B2]. exists false. split; [exact B1|]. split; [discriminate|intros _; exact B2].
  Qed.
  Lemma obj_sorted n : neutron_obj n -> Sorted Z.le (n_mts n).
  Proof. intros O. destruct (obj_inv n O) as (pre & mts & _ & _ & _ & M). rewrite M. apply sort_sorted. Qed.
  (** the derived object always lists MT 0 *)
  Lemma from_zero NB a n0 n : (0 < nmt a)%nat -> make_neutron_from absorb NB a n0 = Ok n -> In 0 (n_mts n) /\
    ((forall k, 0 <= k < Z.of_nat (nmt a) -> ~ mtr_entry a k 0) -> neutron_has n 0 = Ok false).
  Proof.
    intros Hn H. unfold make_neutron_from in H.
    apply bind_ok in H as (g & Eg & H). apply bind_ok in H as (xs & Ex & H). apply bind_ok in H as ([[mts idx] rs] & El & H).
    apply bind_ok in H as (f & Ef & H). destruct (finish_fields _ _ _ _ _ _ _ _ _ _ _ H) as (F1 & F2 & F3 & F4 & F5 & F6 & F7).
    destruct (reaction_loop_mts _ _ _ _ _ _ _ _ _ _ El) as (new & -> & El'). specialize (El' []). cbn [app] in El'. split.
    - rewrite F1. apply (Permutation_in _ (Permutation_sym (sort_perm _))). rewrite !in_app_iff. left; left.
      destruct (nmt a); [lia|]. cbn. auto.
    - intros Hk. unfold neutron_has, has_reaction. cbn [is_fission_mt Z.eqb orb]. change (891 <? 0) with false. rewrite F2.
      assert (G : forall n indx mts idx rs mts' idx' rs' mk, sizeZ idx = 892 -> atZ idx 0 = Ok (-1) -> (forall k, indx <= k < indx + Z.of_nat n -> ~ mtr_entry a k 0) ->
         reaction_loop mk n a indx mts idx rs = Ok (mts', idx', rs') -> atZ idx' 0 = Ok (-1)).
      { clear. induction n as [|n IH]; cbn [reaction_loop]; intros indx mts idx rs mts' idx' rs' mk S0 A K E; [injection E as _ <- _; exact A|].
        apply bind_ok in E as (mt & Em & E). destruct (is_fission_mt mt); [eapply IH; [exact S0|exact A| |exact E]; intros k Hk; apply K; lia|].
        apply bind_ok in E as (r & _ & E). apply bind_ok in E as (idx1 & Ei & E).
        assert (mt <> 0) by (intros ->; apply (K indx); [lia|exact Em]).
        pose proof (setZ_inv _ _ _ _ Ei) as B2. destruct (setZ_ok idx mt (sizeZ rs) B2) as (w & Ew & W1 & W2 & W3). rewrite Ei in Ew. injection Ew as <-.
        eapply IH; [| | |exact E]; [lia|rewrite W3 by congruence; exact A|]. intros k Hk; apply K; lia. }
      assert (A0 : atZ idx 0 = Ok (-1)); [|rewrite A0; reflexivity]. eapply G; [| |exact Hk|exact El']; reflexivity.
  Qed.
End N.
