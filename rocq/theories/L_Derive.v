(** * Deriving a nuclide at another temperature gives what loading that file in full gives (C104) *)
From Coq Require Import Reals Lra Lia List ZifyBool ZifyNat Permutation Sorting.Sorted.
From Verif Require Import Base L_Search L_PC M_Interp M_Tab1D M_Func M_Grid M_Packet M_PC M_Spectra M_Ace M_Neutron S_Derive L_Neutron L_Laws5.
Import ListNotations.
Local Open Scope Z_scope.

Section Derive.
  Context {T : Type} {N : Num T}.
  Lemma reaction_loop_same mk1 mk2 (a : ace T) z : forall n indx mts idx rs mts' idx' rs',
    (forall k mt, indx <= k < indx + Z.of_nat n -> mtr_entry a k mt -> is_fission_mt mt = false -> mk1 mt k = mk2 mt k) ->
    reaction_loop mk2 n a indx mts idx rs = Ok (mts', idx', rs') -> reaction_loop mk1 n a indx (z ++ mts) idx rs = Ok (z ++ mts', idx', rs').
  Proof.
    induction n as [|n IH]; cbn [reaction_loop]; intros indx mts idx rs mts' idx' rs' H E; [injection E as <- <- <-; reflexivity|].
    apply bind_ok in E as (mt & Em & E). rewrite Em. cbn [bind]. destruct (is_fission_mt mt) eqn:F.
    - apply IH; [|exact E]. intros k m B. apply H. lia.
    - apply bind_ok in E as (r & Er & E). rewrite (H indx mt) by (assumption || lia). rewrite Er. cbn [bind]. apply bind_ok in E as (i1 & Ei & E). rewrite Ei. cbn [bind]. rewrite <- app_assoc. apply IH; [|exact E]. intros k m B. apply H. lia.
  Qed.
  Lemma fission_loop_same mk1 mk2 (a : ace T) : forall n indx s s',
    (forall k mt, indx <= k < indx + Z.of_nat n -> mtr_entry a k mt -> is_fission_mt mt = true -> mk1 mt k = mk2 mt k) ->
    fission_loop mk2 n a indx s = Ok s' -> fission_loop mk1 n a indx s = Ok s'.
  Proof.
    induction n as [|n IH]; cbn [fission_loop]; intros indx s s' H E; [exact E|].
    apply bind_ok in E as (mt & Em & E). rewrite Em. cbn [bind]. apply bind_ok in E as (s1 & E1 & E). destruct (is_fission_mt mt) eqn:F.
    - rewrite (H indx mt) by (assumption || lia). rewrite E1. cbn [bind]. apply IH; [|exact E]. intros k m B. apply H. lia.
    - rewrite E1. cbn [bind]. apply IH; [|exact E]. intros k m B. apply H. lia.
  Qed.
  Lemma finish_mts (a : ace T) g temp fs xs el f mts mts' idx rs n : finish a g temp fs xs el f mts idx rs = Ok n ->
    exists n', finish a g temp fs xs el f mts' idx rs = Ok n' /\ n' = with_list n (sort_mts (mts' ++ f_mts f)).
  Proof.
    unfold finish. destruct xs as [[[[tot dis] ela] hea] pho]. intros H. apply bind_ok in H as (fx & Ef & H). apply bind_ok in H as (h & Eh & H). apply bind_ok in H as (cx & Ec & H). apply bind_ok in H as (u & Eu & H). injection H as <-.
    rewrite Ef. cbn [bind]. rewrite Eh. cbn [bind]. rewrite Ec. cbn [bind]. rewrite Eu. cbn [bind]. eexists. split; reflexivity.
  Qed.
  Lemma with_list_answers (n : neutron T) l : answers_as (with_list n l) n.
  Proof. constructor; reflexivity. Qed.

  Variable load : ace T -> Z -> Z -> T -> T -> bool -> res (aelaw T).
  Variable absorb : Z -> aelaw T.
  Variable load_delayed : ace T -> Z -> res (elaw T).
  Variable load_elastic : ace T -> res (adist T).
  Notation make_neutron := (make_neutron load absorb load_delayed load_elastic).
  Theorem derived_is_loaded NB1 NB a1 a2 n1 n2 : make_neutron NB1 a1 = Ok n1 -> make_neutron NB a2 = Ok n2 -> a_fissile a1 = a_fissile a2 -> distinct_mts a2 -> same_physics n1 n2 ->
    exists n, make_neutron_from absorb NB a2 n1 = Ok n /\ answers_as n n2 /\ Sorted Z.le (n_mts n) /\ Permutation (n_mts n) (repeat 0 (nmt a2) ++ n_mts n2).
  Proof.
    intros H1 H2 HF ND [SE SN SF SR]. pose proof (neutron_lookup load absorb load_delayed load_elastic NB a2 n2 H2) as LK. pose proof (fun mt r => which_reaction load absorb load_delayed load_elastic NB a2 n2 mt r H2) as WR.
    destruct (neutron_parts load absorb load_delayed load_elastic NB a2 n2 H2) as (g & xs & mts & idx & rs & f & Eg & Ex & El & Ef & En).
    destruct (finish_fields _ _ _ _ _ _ _ _ _ _ _ En) as (F1 & F2 & F3 & F4 & F5 & F6 & F7).
    assert (HS : n_fissile n1 = a_fissile a2).
    { rewrite <- HF. destruct (neutron_parts load absorb load_delayed load_elastic NB1 a1 n1 H1) as (g1 & xs1 & m1 & i1 & r1 & f1 & _ & _ & _ & _ & En1). revert En1. unfold finish. destruct xs1 as [[[[? ?] ?] ?] ?]. intros Q.
      apply bind_ok in Q as (? & _ & Q). apply bind_ok in Q as (? & _ & Q). apply bind_ok in Q as (? & _ & Q). apply bind_ok in Q as (? & _ & Q). injection Q as <-. reflexivity. }
    (* the reaction of an entry, made from the one the first object has *)
    destruct (reaction_loop_inv load absorb load_delayed load_elastic (fun _ i => make_reaction load absorb a2 i g) a2) with (n := nmt a2) (indx := 0) (mts := @nil Z) (idx := no_indices) (rs := @nil (reaction T)) (mts' := mts) (idx' := idx) (rs' := rs) as [L K];
      [|exact (no_indices_inv load absorb load_delayed)|exact El|].
    { intros mt i r Em Er. apply make_reaction_mt in Er. unfold mtr_entry in *. congruence. }
    destruct (make_fission_slots load absorb load_delayed load_elastic a2 g f Ef) as [SI SM].
    (* the reaction of an entry, made from the one the first object has *)
    assert (KEY : forall k mt, 0 <= mt -> 0 <= k < Z.of_nat (nmt a2) -> mtr_entry a2 k mt -> In mt (mts ++ f_mts f) -> exists r1, neutron_reaction n1 mt = Ok r1 /\ make_reaction_from a2 k g r1 = make_reaction load absorb a2 k g).
    { intros k mt P B M I. assert (I2 : In mt (n_mts n2)) by (rewrite F1; apply (Permutation_in _ (Permutation_sym (sort_perm _))); exact I).
      destruct (LK mt P) as [Y _]. destruct (Y I2) as (_ & r2 & E2 & _). destruct (WR mt r2 E2) as (k' & (B' & M' & _) & R2). assert (k' = k) as -> by (eapply ND; eassumption). rewrite F5 in R2.
      destruct (SR mt r2 E2) as (r1 & E1 & Q1 & Q2 & Q3 & Q4 & Q5). exists r1. split; [exact E1|]. rewrite R2. unfold make_reaction_from. rewrite Z.eqb_refl. cbn [bind]. rewrite Q1, Q2, Q3, Q4, Q5.
      unfold make_reaction in R2. apply bind_ok in R2 as (? & _ & R2). apply bind_ok in R2 as (? & _ & R2). apply bind_ok in R2 as (? & _ & R2). apply bind_ok in R2 as (? & _ & R2). apply bind_ok in R2 as (? & _ & R2). apply bind_ok in R2 as ([xx th] & Ext & R2).
      rewrite Ext. cbn [bind fst snd]. injection R2 as <-. reflexivity. }
    set (mk1 := fun mt i => let! k := atZ (n_indices n1) mt in let! r := atZ (n_reactions n1) k in make_reaction_from a2 i g r).
    assert (L1 : reaction_loop mk1 (nmt a2) a2 0 (repeat 0 (nmt a2) ++ []) no_indices [] = Ok (repeat 0 (nmt a2) ++ mts, idx, rs)).
    { apply (reaction_loop_same _ (fun _ i => make_reaction load absorb a2 i g)); [|exact El]. intros k mt B M F. assert (I : In mt mts) by (apply K; right; exists k; auto).
      destruct (KEY k mt) as (r1 & E1 & Q); [pose proof (li_range _ _ _ L mt I); lia|lia|exact M|apply in_or_app; auto|]. unfold mk1. apply get_reaction_cases in E1 as [[C _]|[_ (j & _ & J1 & J2)]]; [congruence|].
      rewrite J1. cbn [bind]. rewrite J2. cbn [bind]. exact Q. }
    rewrite app_nil_r in L1.
    assert (L2 : make_fission_from absorb a2 g (n_fission n1) = Ok f).
    { unfold make_fission_from. unfold make_fission in Ef. rewrite F4 in SN, SF. apply bind_ok in Ef as (ns & En' & Ef). destruct (a_fissile a2) eqn:EF.
      - apply bind_ok in Ef as (fam & Efam & Ef). apply bind_ok in Ef as (s & Es & Ef). apply bind_ok in Ef as (ps & Eps & Ef).
        rewrite (fission_loop_same _ (fun _ i => make_reaction load absorb a2 i g) a2 (nmt a2) 0 no_slots s); [cbn [bind]; rewrite Eps; cbn [bind]; rewrite SN, SF; injection Ef as <-; reflexivity| |exact Es].
        intros k mt B M F. destruct (KEY k mt) as (r1 & E1 & Q); [unfold is_fission_mt in F; lia|lia|exact M|apply in_or_app; right; apply SM; split; [reflexivity|]; split; [exact F|]; exists k; split; [lia|exact M]|].
        apply get_reaction_cases in E1 as [[_ J]|[C _]]; [|congruence]. change (fission_slot (n_fission n1) mt) with (slot (fis_slots (n_fission n1)) mt). rewrite J. exact Q.
      - assert (S1 : f_spectrum (n_fission n1) = absorb 18).
        { destruct (neutron_parts load absorb load_delayed load_elastic NB1 a1 n1 H1) as (g1 & xs1 & m1 & i1 & r1 & f1 & _ & _ & _ & Ef1 & En1). destruct (finish_fields _ _ _ _ _ _ _ _ _ _ _ En1) as (_ & _ & _ & G4 & _). rewrite G4.
          unfold make_fission in Ef1. rewrite HF in Ef1. apply bind_ok in Ef1 as (? & _ & Ef1). injection Ef1 as <-. reflexivity. }
        rewrite SN, SF, S1. injection Ef as <-. reflexivity. }
    destruct (finish_mts _ _ _ _ _ _ _ _ (repeat 0 (nmt a2) ++ mts) _ _ _ En) as (n & Fin & ->).
    unfold make_neutron_from. rewrite Eg. cbn [bind]. rewrite Ex. cbn [bind]. change (reaction_loop _ _ _ _ _ _ _) with (reaction_loop mk1 (nmt a2) a2 0 (repeat 0 (nmt a2)) no_indices []). rewrite L1. cbn [bind]. rewrite L2. cbn [bind].
    rewrite HS, SE. eexists. split; [exact Fin|]. split; [apply with_list_answers|]. cbn [with_list n_mts]. rewrite F1. split; [apply sort_sorted|].
    rewrite !sort_perm. rewrite <- app_assoc. reflexivity.
  Qed.
End Derive.
