(** * Which entry of the file a reaction lookup returns *)
From Coq Require Import Reals Lra Lia List ZifyBool ZifyNat Permutation.
From Verif Require Import Base L_Search L_PC M_Interp M_Tab1D M_Func M_Grid M_Packet M_PC M_Spectra M_Ace M_Neutron L_Neutron.
Import ListNotations.
Local Open Scope Z_scope.

Section Which.
  Context {T : Type} {N : Num T}.
  (** entry [k] is the last of the entries before [lim] with this MT *)
  Definition last_entry (a : ace T) (lim k mt : Z) : Prop := 0 <= k < lim /\ mtr_entry a k mt /\ forall k', k < k' < lim -> ~ mtr_entry a k' mt.
  Lemma last_entry_step a lim k mt mt' : mtr_entry a lim mt' -> mt' <> mt -> last_entry a lim k mt -> last_entry a (lim + 1) k mt.
  Proof.
    intros E D (B & M & L). split; [lia|]. split; [exact M|]. intros k' K. destruct (Z.eq_dec k' lim) as [->|]; [|apply L; lia]. unfold mtr_entry in *. congruence.
  Qed.
  Lemma last_entry_new a lim mt : 0 <= lim -> mtr_entry a lim mt -> last_entry a (lim + 1) lim mt.
  Proof. intros B M. split; [lia|]. split; [exact M|]. intros k' K. lia. Qed.

  Definition which_inv (mk : Z -> Z -> res (reaction T)) (a : ace T) (lim : Z) (idx : list Z) (rs : list (reaction T)) : Prop :=
    forall mt j, atZ idx mt = Ok j -> 0 <= j -> exists k r, last_entry a lim k mt /\ mk mt k = Ok r /\ atZ rs j = Ok r.
  Lemma reaction_loop_which mk a : forall n indx mts idx rs mts' idx' rs', 0 <= indx -> which_inv mk a indx idx rs -> (forall mt, is_fission_mt mt = true -> forall j, atZ idx mt = Ok j -> j < 0) ->
    reaction_loop mk n a indx mts idx rs = Ok (mts', idx', rs') -> which_inv mk a (indx + Z.of_nat n) idx' rs'.
  Proof.
    induction n as [|n IH]; cbn [reaction_loop]; intros indx mts idx rs mts' idx' rs' B W F E.
    - injection E as _ <- <-. rewrite Z.add_0_r. exact W.
    - apply bind_ok in E as (mt & Em & E). replace (indx + Z.of_nat (S n)) with (indx + 1 + Z.of_nat n) by lia.
      destruct (is_fission_mt mt) eqn:D.
      + refine (IH _ _ _ _ _ _ _ _ _ F E); [lia|]. intros m j Ej Hj. destruct (W m j Ej Hj) as (k & r & L & K).
        exists k, r. split; [|exact K]. apply (last_entry_step a indx k m mt Em); [|exact L]. intros ->. specialize (F m D j Ej). lia.
      + apply bind_ok in E as (r & Er & E). apply bind_ok in E as (idx1 & Ei & E). pose proof (setZ_inv _ _ _ _ Ei) as S.
        destruct (setZ_ok idx mt (sizeZ rs) S) as (w & Ew & W1 & W2 & W3). rewrite Ei in Ew. injection Ew as <-.
        refine (IH _ _ _ _ _ _ _ _ _ _ E); [lia| |].
        * intros m j Ej Hj. destruct (Z.eq_dec m mt) as [->|Q].
          { rewrite W2 in Ej. injection Ej as <-. exists indx, r. split; [apply last_entry_new; assumption|]. split; [exact Er|]. apply atZ_snoc. }
          rewrite W3 in Ej by exact Q. destruct (W m j Ej Hj) as (k & r' & L & K1 & K2). exists k, r'.
          split; [apply (last_entry_step a indx k m mt Em); [congruence|exact L]|]. split; [exact K1|]. rewrite atZ_app_l; [exact K2|]. apply atZ_inv in K2. lia.
        * intros m D' j Ej. rewrite W3 in Ej by congruence. exact (F m D' j Ej).
  Qed.
  Lemma which_nil mk a : which_inv mk a 0 no_indices [].
  Proof.
    intros mt j E Hj. exfalso. assert (B : 0 <= mt < 892). { apply atZ_inv in E. change (sizeZ no_indices) with 892 in E. lia. }
    unfold no_indices in E. rewrite (atZ_nth (-1)) in E by (unfold sizeZ; rewrite repeat_length; lia). rewrite (nth_repeat (-1) 892 (Z.to_nat mt)) in E. assert (Q : forall x y : Z, Ok x = Ok y -> x = y) by congruence. apply Q in E. lia.
  Qed.
  Lemma no_fission_index mt : is_fission_mt mt = true -> forall j, atZ no_indices mt = Ok j -> j < 0.
  Proof.
    intros F j E. apply fission_mts in F. destruct F as [F|[F|[F|[F|F]]]]; subst mt; cbn in E; injection E as <-; lia.
  Qed.
  Lemma fission_loop_which mk a : forall n indx s s', 0 <= indx -> (forall mt r, slot s mt = Some r -> exists k, last_entry a indx k mt /\ mk mt k = Ok r) ->
    fission_loop mk n a indx s = Ok s' -> forall mt r, slot s' mt = Some r -> exists k, last_entry a (indx + Z.of_nat n) k mt /\ mk mt k = Ok r.
  Proof.
    induction n as [|n IH]; cbn [fission_loop]; intros indx s s' B W E; [injection E as <-; rewrite Z.add_0_r; exact W|].
    apply bind_ok in E as (mt & Em & E). apply bind_ok in E as (s1 & E1 & E). replace (indx + Z.of_nat (S n)) with (indx + 1 + Z.of_nat n) by lia.
    refine (IH _ _ _ _ _ E); [lia|]. destruct (is_fission_mt mt) eqn:D.
    - apply bind_ok in E1 as (r & Er & E1). injection E1 as <-. intros m r'. rewrite slot_set by exact D. destruct (m =? mt) eqn:Q.
      + intros H. injection H as <-. replace m with mt by lia. exists indx. split; [apply last_entry_new; assumption|exact Er].
      + intros H. destruct (W m r' H) as (k & L & K). exists k. split; [|exact K]. apply (last_entry_step a indx k m mt Em); [lia|exact L].
    - injection E1 as <-. intros m r' H. destruct (W m r' H) as (k & L & K). exists k. split; [|exact K]. apply (last_entry_step a indx k m mt Em); [|exact L].
      intros ->. unfold slot, get_slot in H. unfold is_fission_mt in D. repeat match type of H with (if ?c then _ else _) = _ => destruct c eqn:?; [lia|] end. discriminate.
  Qed.
  Lemma no_slots_none mt (r : reaction T) : slot no_slots mt = Some r -> False.
  Proof. unfold slot, get_slot. cbn. repeat destruct (_ =? _); discriminate. Qed.

  Variable load : ace T -> Z -> Z -> T -> T -> bool -> res (aelaw T).
  Variable absorb : Z -> aelaw T.
  Variable load_delayed : ace T -> Z -> res (elaw T).
  Variable load_elastic : ace T -> res (adist T).
  Lemma get_reaction_cases (f : fis T) idx rs mt r : get_reaction f idx rs mt = Ok r ->
    (is_fission_mt mt = true /\ slot (fis_slots f) mt = Some r) \/ (is_fission_mt mt = false /\ exists j, 0 <= j /\ atZ idx mt = Ok j /\ atZ rs j = Ok r).
  Proof.
    clear load absorb load_delayed load_elastic. unfold get_reaction, has_reaction. destruct (is_fission_mt mt) eqn:F.
    - unfold fission_has, fission_reaction. change (fission_slot f mt) with (slot (fis_slots f) mt). destruct (slot (fis_slots f) mt) eqn:E; [|discriminate].
      cbn [bind negb]. unfold fission_has. change (fission_slot f mt) with (slot (fis_slots f) mt). rewrite E. intros H. injection H as <-. auto.
    - destruct (891 <? mt) eqn:B; [discriminate|]. intros H. apply bind_ok in H as (h & Eh & H). apply bind_ok in Eh as (j & Ej & Eh). injection Eh as <-.
      destruct (j <? 0) eqn:J; [discriminate|]. cbn [negb] in H. right. split; [reflexivity|].
      rewrite Ej in H. cbn [bind] in H. exists j. split; [lia|]. split; [exact Ej|exact H].
  Qed.
  Lemma which_reaction NB a n mt r : make_neutron load absorb load_delayed load_elastic NB a = Ok n -> neutron_reaction n mt = Ok r ->
    exists k, last_entry a (Z.of_nat (nmt a)) k mt /\ make_reaction load absorb a k (n_grid n) = Ok r.
  Proof.
    intros H G. destruct (neutron_parts load absorb load_delayed load_elastic NB a n H) as (g & xs & mts & idx & rs & f & Eg & Ex & El & Ef & En).
    destruct (finish_fields _ _ _ _ _ _ _ _ _ _ _ En) as (F1 & F2 & F3 & F4 & F5 & F6 & F7). unfold neutron_reaction in G. rewrite F2, F3, F4 in G. rewrite F5.
    apply get_reaction_cases in G as [[F G]|[F (j & Hj & G1 & G2)]].
    - unfold make_fission in Ef. apply bind_ok in Ef as (ns & _ & Ef). destruct (a_fissile a).
      + apply bind_ok in Ef as (fam & _ & Ef). apply bind_ok in Ef as (s & Es & Ef). apply bind_ok in Ef as (ps & _ & Ef). injection Ef as <-.
        destruct (fission_loop_which (fun _ i => make_reaction load absorb a i g) a (nmt a) 0 no_slots s) with (mt := mt) (r := r) as (k & L & K); try lia.
        * intros m q Hn. destruct (no_slots_none _ _ Hn).
        * exact Es.
        * unfold fis_slots in G. cbn in G. destruct s; exact G.
        * exists k. split; [exact L|exact K].
      + injection Ef as <-. destruct (no_slots_none _ _ G).
    - destruct (reaction_loop_which (fun _ i => make_reaction load absorb a i g) a (nmt a) 0 [] no_indices [] mts idx rs) with (mt := mt) (j := j) as (k & r' & L & K1 & K2); try lia; try assumption.
      + apply which_nil.
      + apply no_fission_index.
      + rewrite G2 in K2. injection K2 as <-. exists k. split; [exact L|exact K1].
  Qed.
  (** second constructor: the reaction of the old object with the same MT, with the cross section of the new file *)
  Lemma which_reaction_from NB a n0 n mt r : make_neutron_from absorb NB a n0 = Ok n -> neutron_reaction n mt = Ok r ->
    exists k r0, last_entry a (Z.of_nat (nmt a)) k mt /\ neutron_reaction n0 mt = Ok r0 /\ make_reaction_from a k (n_grid n) r0 = Ok r.
  Proof.
    clear load load_delayed load_elastic. intros H G. unfold make_neutron_from in H.
    apply bind_ok in H as (g & Eg & H). apply bind_ok in H as (xs & Ex & H). apply bind_ok in H as ([[mts idx] rs] & El & H).
    apply bind_ok in H as (f & Ef & H). destruct (finish_fields _ _ _ _ _ _ _ _ _ _ _ H) as (F1 & F2 & F3 & F4 & F5 & F6 & F7).
    unfold neutron_reaction in G. rewrite F2, F3, F4 in G. rewrite F5. apply get_reaction_cases in G as [[F G]|[F (j & Hj & G1 & G2)]].
    - unfold make_fission_from in Ef. destruct (a_fissile a).
      + apply bind_ok in Ef as (s & Es & Ef). apply bind_ok in Ef as (ps & _ & Ef). injection Ef as <-.
        match type of Es with fission_loop ?mk _ _ _ _ = _ => destruct (fission_loop_which mk a (nmt a) 0 no_slots s) with (mt := mt) (r := r) as (k & L & K); try lia end.
        * intros m q Hn. destruct (no_slots_none _ _ Hn).
        * exact Es.
        * unfold fis_slots in G. cbn in G. destruct s; exact G.
        * destruct (fission_slot (n_fission n0) mt) as [r0|] eqn:E0; [|discriminate]. exists k, r0. split; [exact L|]. split; [|exact K].
          unfold neutron_reaction, get_reaction, has_reaction. rewrite F. unfold fission_reaction. replace (fission_has (n_fission n0) mt) with true by (unfold fission_has; rewrite E0; reflexivity). cbn [bind negb]. replace (fission_has (n_fission n0) mt) with true by (unfold fission_has; rewrite E0; reflexivity). rewrite E0. reflexivity.
      + injection Ef as <-. destruct (no_slots_none _ _ G).
    - match type of El with reaction_loop ?mk _ _ _ ?m0 _ _ = _ =>
        destruct (reaction_loop_which mk a (nmt a) 0 m0 no_indices [] mts idx rs) with (mt := mt) (j := j) as (k & r' & L & K1 & K2); try lia; try assumption end.
      + apply which_nil.
      + apply no_fission_index.
      + rewrite G2 in K2. injection K2 as <-. apply bind_ok in K1 as (j0 & E0 & K1). apply bind_ok in K1 as (r0 & E1 & K1).
        exists k, r0. split; [exact L|]. split; [|exact K1].
        assert (M : mt < 892). { apply atZ_inv in G1. pose proof (atZ_inv _ _ _ E0).
          assert (S : forall n i m ix q m' ix' q' mk, sizeZ ix = 892 -> reaction_loop mk n a i m ix q = Ok (m', ix', q') -> sizeZ ix' = 892).
          { clear. induction n as [|n IH]; cbn [reaction_loop]; intros i m ix q m' ix' q' mk S E; [injection E as _ <- _; exact S|].
            apply bind_ok in E as (mt & Em & E). destruct (is_fission_mt mt); [exact (IH _ _ _ _ _ _ _ _ S E)|].
            apply bind_ok in E as (r & _ & E). apply bind_ok in E as (i1 & Ei & E). pose proof (setZ_inv _ _ _ _ Ei) as B. destruct (setZ_ok ix mt (sizeZ q) B) as (w & Ew & W1 & _).
            rewrite Ei in Ew. injection Ew as <-. refine (IH _ _ _ _ _ _ _ _ _ E). lia. }
          assert (sizeZ idx = 892) by (refine (S _ _ _ _ _ _ _ _ _ _ El); reflexivity). lia. }
        assert (J : 0 <= j0) by (apply atZ_inv in E1; lia).
        unfold neutron_reaction, get_reaction, has_reaction. rewrite F. replace (891 <? mt) with false by lia. rewrite E0. cbn [bind]. replace (j0 <? 0) with false by lia. cbn [negb]. exact E1.
  Qed.
End Which.
