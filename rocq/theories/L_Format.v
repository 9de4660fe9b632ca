(** * What is loaded depends on the temperature of an ACE object only where it reports it *)
From Coq Require Import List ZArith Lia.
From Verif Require Import Base M_Interp M_Tab1D M_Func M_Grid M_Packet M_PC M_Spectra M_Kin M_Ident M_AceBin M_Ace M_Neutron M_Laws M_Thermal S_AceBin S_Format.
Import ListNotations.
Local Open Scope Z_scope.

Section Fmt.
  Context {T : Type} {N : Num T}.
  Variables (z : Z) (w : T) (fi : bool) (nx jx : list Z) (xs : list T) (t t' : T).
  Let A := mkAce z w t fi nx jx xs.
  Let A' := mkAce z w t' fi nx jx xs.
  Lemma bind_cong {X Y} (m m' : res X) (k k' : X -> res Y) : m = m' -> (forall x, k x = k' x) -> bind m k = bind m' k'.
  Proof. intros -> H. destruct m'; cbn; [apply H|reflexivity..]. Qed.
  Lemma mapR_cong {X Y} (f g : X -> res Y) l : (forall x, f x = g x) -> mapR f l = mapR g l.
  Proof. intros H. induction l as [|x l IH]; [reflexivity|]. cbn [mapR]. apply bind_cong; [apply H|intros]. rewrite IH. reflexivity. Qed.
  Lemma if_cong {X} (b : bool) (x x' y : X) : x = x' -> (if b then x else y) = (if b then x' else y).
  Proof. intros ->. reflexivity. Qed.
  Ltac bc := repeat (apply bind_cong; [reflexivity|intros ?]).

  Lemma law_loop_t : forall n angle q i, law_loop n A angle q i = law_loop n A' angle q i.
  Proof.
    induction n as [|n IH]; intros; [reflexivity|]. cbn [law_loop]. bc.
    match goal with |- (if ?b then _ else _) = _ => destruct b end; [reflexivity|]. apply bind_cong; [apply IH|reflexivity].
  Qed.
  Lemma load_neutron_t indx mt q awr cm : load_neutron A indx mt q awr cm = load_neutron A' indx mt q awr cm.
  Proof. unfold load_neutron, load_neutron_fuel. bc. apply bind_cong; [apply law_loop_t|reflexivity]. Qed.
  Lemma load_delayed_t g : load_delayed_law A g = load_delayed_law A' g. Proof. reflexivity. Qed.
  Lemma load_elastic_t : load_elastic_angle A = load_elastic_angle A'. Proof. reflexivity. Qed.
  Lemma make_reaction_t i g : make_reaction load_neutron absorption_law A i g = make_reaction load_neutron absorption_law A' i g.
  Proof.
    unfold make_reaction. bc. apply bind_cong; [|reflexivity].
    match goal with |- (if ?b then _ else _) = _ => destruct b end; [apply load_neutron_t|reflexivity].
  Qed.
  Lemma fission_loop_t mk mk' : (forall m i, mk m i = mk' m i) -> forall n i s, fission_loop mk n A i s = fission_loop mk' n A' i s.
  Proof.
    intros H. induction n as [|n IH]; intros; [reflexivity|]. cbn [fission_loop]. bc. apply bind_cong; [|intros; apply IH].
    match goal with |- (if ?b then _ else _) = _ => destruct b end; [rewrite H|]; reflexivity.
  Qed.
  Lemma families_loop_t : forall n i g, families_loop load_delayed_law n A i g = families_loop load_delayed_law n A' i g.
  Proof. induction n as [|n IH]; intros; [reflexivity|]. cbn [families_loop]. bc. apply bind_cong; [apply IH|reflexivity]. Qed.
  Lemma make_families_t : make_families load_delayed_law A = make_families load_delayed_law A'.
  Proof. unfold make_families. change (BDD A) with (BDD A'). destruct (0 <? BDD A'); [apply families_loop_t|reflexivity]. Qed.
  Lemma make_fission_t g : make_fission load_neutron absorption_law load_delayed_law A g = make_fission load_neutron absorption_law load_delayed_law A' g.
  Proof.
    unfold make_fission. apply bind_cong; [reflexivity|intros]. change (a_fissile A) with fi. change (a_fissile A') with fi. apply if_cong.
    apply bind_cong; [apply make_families_t|intros]. apply bind_cong; [|reflexivity]. apply fission_loop_t. intros; apply make_reaction_t.
  Qed.
  Lemma read_ptables_t : forall k i n, read_ptables k A i n = read_ptables k A' i n.
  Proof. induction k as [|k IH]; intros; [reflexivity|]. cbn [read_ptables]. bc. apply bind_cong; [apply IH|reflexivity]. Qed.
  Lemma make_urr_t e c f h rs : make_urr A e c f h rs = make_urr A' e c f h rs.
  Proof. unfold make_urr. change (jxs A 22) with (jxs A' 22). destruct (jxs A' 22 =? 0); [reflexivity|]. bc. apply bind_cong; [apply read_ptables_t|reflexivity]. Qed.
  Lemma reaction_loop_t mk mk' : (forall m i, mk m i = mk' m i) -> forall n i a b c, reaction_loop mk n A i a b c = reaction_loop mk' n A' i a b c.
  Proof.
    intros H. induction n as [|n IH]; intros; [reflexivity|]. cbn [reaction_loop]. bc.
    match goal with |- (if ?b then _ else _) = _ => destruct b end; [apply IH|]. apply bind_cong; [apply H|intros]. bc. apply IH.
  Qed.
  Definition at_temperature (s : T) (n : neutron T) : neutron T :=
    mkNeutron s (n_fissile n) (n_grid n) (n_total n) (n_disappearance n) (n_elastic_xs n) (n_heating n) (n_fission_xs n) (n_photon n) (n_elastic n) (n_fission n) (n_urr n) (n_mts n) (n_indices n) (n_reactions n).
  Lemma finish_t g fis0 x el f m i r : finish A' g t' fis0 x el f m i r = let! n := finish A g t fis0 x el f m i r in Ok (at_temperature t' n).
  Proof.
    unfold finish. destruct x as [[[[tot dis] ela] hea] pho]. destruct (compute_fission_xs fis0 f g); cbn [bind]; try reflexivity. destruct (has_reaction f i 102) as [h| | |]; cbn [bind]; try reflexivity.
    match goal with |- bind ?m _ = _ => destruct m; cbn [bind]; try reflexivity end. rewrite (make_urr_t ela). match goal with |- bind ?m _ = _ => destruct m; cbn [bind]; reflexivity end.
  Qed.
  Lemma neutron_t NB : neutron_of_ace NB A' = let! n := neutron_of_ace NB A in Ok (at_temperature t' n).
  Proof.
    unfold neutron_of_ace, make_neutron. change (grid_of_ace A' NB) with (grid_of_ace A NB). destruct (grid_of_ace A NB) as [g| | |]; cbn [bind]; try reflexivity.
    change (read_main_xs A' g) with (read_main_xs A g). destruct (read_main_xs A g) as [x| | |]; cbn [bind]; try reflexivity.
    change (nmt A') with (nmt A). rewrite (reaction_loop_t (fun _ i => make_reaction load_neutron absorption_law A i g) (fun _ i => make_reaction load_neutron absorption_law A' i g)) by (intros; apply make_reaction_t).
    match goal with |- bind ?m _ = _ => destruct m as [[[m0 i0] r0]| | |]; cbn [bind]; try reflexivity end.
    change (load_elastic_angle A') with (load_elastic_angle A). destruct (load_elastic_angle A) as [el| | |]; cbn [bind]; try reflexivity.
    rewrite make_fission_t. match goal with |- bind ?m _ = _ => destruct m; cbn [bind]; try reflexivity end. apply finish_t.
  Qed.
  (** thermal files *)
  Lemma read_cosines_t : forall k i nmu, read_cosines k A i nmu = read_cosines k A' i nmu.
  Proof. induction k as [|k IH]; intros; [reflexivity|]. cbn [read_cosines]. bc. match goal with |- (if ?b then _ else _) = _ => destruct b end; [reflexivity|]. bc. match goal with |- (if ?b then _ else _) = _ => destruct b end; [reflexivity|]. apply bind_cong; [apply IH|reflexivity]. Qed.
  Lemma read_dce_row_t : forall k i nmu, read_dce_row k A i nmu = read_dce_row k A' i nmu.
  Proof. induction k as [|k IH]; intros; [reflexivity|]. cbn [read_dce_row]. bc. match goal with |- (if ?b then _ else _) = _ => destruct b end; [reflexivity|]. bc. apply bind_cong; [apply IH|reflexivity]. Qed.
  Lemma read_dce_t : forall k noe i nmu, read_dce k noe A i nmu = read_dce k noe A' i nmu.
  Proof. induction k as [|k IH]; intros; [reflexivity|]. cbn [read_dce]. apply bind_cong; [apply read_dce_row_t|intros [? ?]]. apply bind_cong; [apply IH|reflexivity]. Qed.
  Lemma read_entries_t : forall k l nmu, read_entries k A l nmu = read_entries k A' l nmu.
  Proof.
    induction k as [|k IH]; intros; [reflexivity|]. cbn [read_entries]. bc. match goal with |- (if ?b then _ else _) = _ => destruct b end; [reflexivity|]. bc. match goal with |- (if ?b then _ else _) = _ => destruct b end; [reflexivity|].
    apply bind_cong; [apply IH|reflexivity].
  Qed.
  Lemma make_ctable_t l n nmu : make_ctable A l n nmu = make_ctable A' l n nmu.
  Proof. unfold make_ctable. apply bind_cong; [apply read_entries_t|reflexivity]. Qed.
  Lemma make_ctables_t nmu : forall ls ns, make_ctables A ls ns nmu = make_ctables A' ls ns nmu.
  Proof. induction ls as [|l ls IH]; intros [|n ns]; try reflexivity. cbn [make_ctables]. apply bind_cong; [apply make_ctable_t|intros]. apply bind_cong; [apply IH|reflexivity]. Qed.
  Lemma make_inco_t : make_inco A = make_inco A'.
  Proof.
    unfold make_inco. change (nxs A) with (nxs A'). change (jxs A) with (jxs A'). destruct ((nxs A' 4 =? 4) || (jxs A' 3 =? 0))%bool; [reflexivity|]. bc. apply bind_cong; [apply read_cosines_t|reflexivity].
  Qed.
  Lemma make_dce_t : make_dce A = make_dce A'.
  Proof. unfold make_dce. change (nxs A) with (nxs A'). change (jxs A) with (jxs A'). bc. apply bind_cong; [apply read_dce_t|reflexivity]. Qed.
  Lemma make_cedc_t u : make_cedc A u = make_cedc A' u.
  Proof. unfold make_cedc. change (nxs A) with (nxs A'). change (jxs A) with (jxs A'). bc. apply bind_cong; [apply make_ctables_t|reflexivity]. Qed.
  Lemma make_inin_t u : make_inin A u = make_inin A' u.
  Proof.
    unfold make_inin. change (nxs A) with (nxs A'). change (jxs A) with (jxs A'). bc. rewrite make_dce_t, make_cedc_t. reflexivity.
  Qed.
  Lemma make_coh_t : make_coh A = make_coh A'. Proof. reflexivity. Qed.
  Definition at_temperature_t (s : T) (x : tsl T) : tsl T := mkTSL (t_zaid x) (t_awr x) s (t_has_coh x) (t_has_inc x) (t_coh x) (t_inc x) (t_inel x).
  Lemma tsl_t u : make_tsl A' u = let! x := make_tsl A u in Ok (at_temperature_t t' x).
  Proof.
    unfold make_tsl. rewrite make_inin_t. destruct (make_inin A' u); cbn [bind]; try reflexivity. rewrite make_inco_t. change (make_coh A) with (make_coh A'). change (nxs A) with (nxs A'). change (jxs A) with (jxs A').
    destruct (negb (jxs A' 3 =? 0)); [destruct (nxs A' 4 =? 4)|]; (destruct (make_coh A'); destruct (make_inco A'); reflexivity).
  Qed.
End Fmt.
