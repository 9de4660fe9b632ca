(** * Everything a neutron or thermal file yields is replayable *)
From Coq Require Import Lia List ZifyBool ZifyNat.
From Verif Require Import Base L_Search L_PC M_Interp M_Tab1D M_Func M_Grid M_PC M_Legendre M_OutE M_Spectra M_Kin M_Doppler M_Thermal M_Ace M_Neutron M_Laws L_Neutron L_Laws5 S_Replay L_Replay.
Import ListNotations.

(** ** what holds of every distribution that is read holds of every distribution of the object *)
Section All.
  Context {T : Type} {N : Num T}.
  Variables (P : aelaw T -> Prop) (PE : elaw T -> Prop) (PA : adist T -> Prop).
  Variable load : ace T -> Z -> Z -> T -> T -> bool -> res (aelaw T).
  Variable absorb : Z -> aelaw T.
  Variable load_delayed : ace T -> Z -> res (elaw T).
  Variable load_elastic : ace T -> res (adist T).
  Hypothesis Hload : forall a i mt q awr cm d, load a i mt q awr cm = Ok d -> P d.
  Hypothesis Habs : forall mt, P (absorb mt).
  Hypothesis Hdel : forall a g e, load_delayed a g = Ok e -> PE e.
  Hypothesis Hel : forall a e, load_elastic a = Ok e -> PA e.
  Hypothesis Hsf : forall d, (forall r, In r [sf0 d; sf1 d; sf2 d; sf3 d] -> P (fr_dist r)) -> P (mkAE (sf_sample d) (sf_angle_pdf d) (sf_pdf d)).
  Lemma reaction_P a i g r : make_reaction load absorb a i g = Ok r -> P (rx_dist r).
  Proof.
    unfold make_reaction. intros H. apply bind_ok in H as (mt & _ & H). apply bind_ok in H as (q & _ & H). apply bind_ok in H as (y & _ & H). apply bind_ok in H as (yf & _ & H).
    apply bind_ok in H as (d & Ed & H). apply bind_ok in H as (xt & _ & H). assert (rx_dist r = d) as -> by (injection H as <-; reflexivity).
    match type of Ed with (if ?c then _ else _) = _ => destruct c end; [exact (Hload _ _ _ _ _ _ _ Ed)|]. assert (absorb mt = d) as <- by congruence. apply Habs.
  Qed.
  Lemma reaction_from_P a i g r0 r : P (rx_dist r0) -> make_reaction_from a i g r0 = Ok r -> P (rx_dist r).
  Proof. intros Q. unfold make_reaction_from. intros H. apply bind_ok in H as (? & _ & H). apply bind_ok in H as (? & _ & H). injection H as <-. exact Q. Qed.
  Lemma spectrum_P s ps : (forall mt r, slot s mt = Some r -> P (rx_dist r)) -> prompt_spectrum absorb s = Ok ps -> P ps.
  Proof.
    intros Q. unfold prompt_spectrum. destruct (s18 s) as [r|] eqn:E18.
    - intros H. assert (rx_dist r = ps) as <- by congruence. apply (Q 18%Z r). unfold slot. cbn. exact E18.
    - destruct (s19 s) as [r19|] eqn:E19, (s20 s) as [r20|] eqn:E20, (s21 s) as [r21|] eqn:E21, (s38 s) as [r38|] eqn:E38; cbn [option_map make_sumfis bind]; try discriminate.
      + intros H. match type of H with Ok ?x = _ => assert (x = ps) as <- by congruence end. apply Hsf. cbn [sf0 sf1 sf2 sf3]. intros r [<-|[<-|[<-|[<-|[]]]]]; cbn [to_freact fr_dist].
        * apply (Q 19%Z). unfold slot. cbn. exact E19.
        * apply (Q 20%Z). unfold slot. cbn. exact E20.
        * apply (Q 21%Z). unfold slot. cbn. exact E21.
        * apply (Q 38%Z). unfold slot. cbn. exact E38.
      + intros H. assert (absorb 18 = ps) as <- by congruence. apply Habs.
  Qed.
  Lemma families_P a : forall n i g fs, families_loop load_delayed n a i g = Ok fs -> forall f, In f fs -> PE (df_energy f).
  Proof.
    induction n as [|n IH]; cbn [families_loop]; intros i g fs H f F; [injection H as <-; destruct F|].
    apply bind_ok in H as (f0 & E0 & H). apply bind_ok in H as (NR & _ & H). apply bind_ok in H as (NE & _ & H). apply bind_ok in H as (r & Er & H). injection H as <-. destruct F as [<-|F]; [|exact (IH _ _ _ Er f F)].
    unfold make_family in E0. apply bind_ok in E0 as (c & _ & E0). apply bind_ok in E0 as (p & _ & E0). apply bind_ok in E0 as (e & Ee & E0). injection E0 as <-. exact (Hdel _ _ _ Ee).
  Qed.
  Definition all_P (n : neutron T) : Prop :=
    (forall mt r, neutron_reaction n mt = Ok r -> P (rx_dist r)) /\ P (f_spectrum (n_fission n)) /\ (forall f, In f (f_families (n_fission n)) -> PE (df_energy f)) /\ PA (n_elastic n).
  Lemma finish_elastic a g temp fissile xs el f mts idx rs n : finish a g temp fissile xs el f mts idx rs = Ok n -> n_elastic n = el.
  Proof.
    unfold finish. destruct xs as [[[[tot dis] ela] hea] pho]. intros H. apply bind_ok in H as (fx & _ & H). apply bind_ok in H as (h & _ & H).
    apply bind_ok in H as (cx & _ & H). apply bind_ok in H as (u & _ & H). injection H as <-. reflexivity.
  Qed.
  Lemma neutron_slot (n : neutron T) mt r : fission_slot (n_fission n) mt = Some r -> neutron_reaction n mt = Ok r.
  Proof.
    clear. intros E. assert (F : is_fission_mt mt = true). { unfold fission_slot, get_slot in E. unfold is_fission_mt. repeat match type of E with (if ?c then _ else _) = _ => destruct c; [rewrite ?Bool.orb_true_r; reflexivity|] end. discriminate. }
    unfold neutron_reaction, get_reaction, has_reaction. rewrite F. unfold fission_reaction. replace (fission_has (n_fission n) mt) with true by (unfold fission_has; rewrite E; reflexivity). cbn [bind negb]. replace (fission_has (n_fission n) mt) with true by (unfold fission_has; rewrite E; reflexivity). cbn [negb]. rewrite E. reflexivity.
  Qed.
  Lemma neutron_all n : neutron_obj load absorb load_delayed load_elastic n -> all_P n.
  Proof.
    induction 1 as [NB a n H|NB a n0 n O IH H].
    - split; [|].
      + intros mt r G. destruct (which_reaction load absorb load_delayed load_elastic NB a n mt r H G) as (k & _ & E). exact (reaction_P _ _ _ _ E).
      + unfold make_neutron in H. apply bind_ok in H as (g & _ & H). apply bind_ok in H as (xs & _ & H). apply bind_ok in H as ([[mts idx] rs] & _ & H). apply bind_ok in H as (el & Ee & H). apply bind_ok in H as (f & Ef & H).
        rewrite (finish_elastic _ _ _ _ _ _ _ _ _ _ _ H). destruct (finish_fields _ _ _ _ _ _ _ _ _ _ _ H) as (_ & _ & _ & -> & _).
        unfold make_fission in Ef. apply bind_ok in Ef as (ns & _ & Ef). destruct (a_fissile a).
        * apply bind_ok in Ef as (fam & EF & Ef). apply bind_ok in Ef as (s & Es & Ef). apply bind_ok in Ef as (ps & Ep & Ef). injection Ef as <-. cbn. split; [|split; [|exact (Hel _ _ Ee)]].
          -- apply (spectrum_P s); [|exact Ep]. intros mt r Sl. destruct (fission_loop_which (fun _ i => make_reaction load absorb a i g) a (nmt a) 0 no_slots s) with (mt := mt) (r := r) as (k & _ & K); try lia; try assumption; [intros m q Hn; destruct (no_slots_none _ _ Hn)|]. exact (reaction_P _ _ _ _ K).
          -- unfold make_families in EF. destruct (0 <? BDD a)%Z; [|injection EF as <-; intros f []]. exact (families_P _ _ _ _ _ EF).
        * injection Ef as <-. cbn. split; [apply Habs|]. split; [intros f []|exact (Hel _ _ Ee)].
    - destruct IH as (I1 & I2 & I3 & I4). split.
      + intros mt r G. destruct (which_reaction_from absorb NB a n0 n mt r H G) as (k & r0 & _ & E0 & E). exact (reaction_from_P _ _ _ _ _ (I1 _ _ E0) E).
      + unfold make_neutron_from in H. apply bind_ok in H as (g & _ & H). apply bind_ok in H as (xs & _ & H). apply bind_ok in H as ([[mts idx] rs] & _ & H). apply bind_ok in H as (f & Ef & H).
        rewrite (finish_elastic _ _ _ _ _ _ _ _ _ _ _ H). destruct (finish_fields _ _ _ _ _ _ _ _ _ _ _ H) as (_ & _ & _ & -> & _).
        unfold make_fission_from in Ef. destruct (a_fissile a).
        * apply bind_ok in Ef as (s & Es & Ef). apply bind_ok in Ef as (ps & Ep & Ef). injection Ef as <-. cbn. split; [|split; [exact I3|exact I4]].
          apply (spectrum_P s); [|exact Ep]. intros mt r Sl. match type of Es with fission_loop ?mk _ _ _ _ = _ => destruct (fission_loop_which mk a (nmt a) 0 no_slots s) with (mt := mt) (r := r) as (k & _ & K); try lia; try assumption end; [intros m q Hn; destruct (no_slots_none _ _ Hn)|].
          destruct (fission_slot (n_fission n0) mt) as [r0|] eqn:E0; [|discriminate]. exact (reaction_from_P _ _ _ _ _ (I1 _ _ (neutron_slot _ _ _ E0)) K).
        * injection Ef as <-. cbn. tauto.
  Qed.
End All.

Section Files.
  Context {T : Type} {N : Num T}.
  Definition rp_ae (d : aelaw T) : Prop := forall E, replayable (ae_sample d E).
  Definition rp_el (d : elaw T) : Prop := forall E, replayable (el_sample d E).
  Definition rp_ad (d : adist T) : Prop := forall E, replayable (adist_sample d E).
  Lemma rp_angle_law a k l : angle_law_of_ace a k = Ok l -> replayable (@al_sample T l).
  Proof.
    unfold angle_law_of_ace. intros H. repeat (apply bind_ok in H as (? & _ & H)). destruct (0 <? _)%Z.
    - apply bind_ok in H as (b & _ & H). injection H as <-. apply rp_angle_bins.
    - destruct (_ <? 0)%Z; [apply bind_ok in H as (t & _ & H); injection H as <-; apply rp_angle_table|injection H as <-; apply rp_isotropic].
  Qed.
  Lemma in_mapR_ {A B} (f : A -> res B) l r y : mapR f l = Ok r -> In y r -> exists x, In x l /\ f x = Ok y.
  Proof.
    revert r. induction l as [|x l IH]; intros r H I; cbn in H; [injection H as <-; destruct I|]. apply bind_ok in H as (b & Eb & H). apply bind_ok in H as (r' & Er & H). injection H as <-.
    destruct I as [<-|I]; [exists x; cbn; tauto|]. destruct (IH _ Er I) as (x' & I' & E'). exists x'. cbn. tauto.
  Qed.
  Lemma rp_adist_of_ace a locb d : adist_of_ace a locb = Ok d -> rp_ad d.
  Proof.
    unfold adist_of_ace. destruct (locb <? 0)%Z; [discriminate|]. destruct (0 <? locb)%Z.
    - intros H. do 5 (apply bind_ok in H as (? & _ & H)). apply bind_ok in H as (laws & EL & H). injection H as <-. intros E. apply rp_adist. cbn [ad_laws]. apply Forall_forall. intros l I.
      destruct (in_mapR_ _ _ _ _ EL I) as (k & _ & El). exact (rp_angle_law _ _ _ El).
    - intros H. injection H as <-. intros E. apply rp_adist. cbn. constructor; [apply rp_isotropic|constructor].
  Qed.
  Lemma rp_energy_law a law j J r e : energy_law a law j J = Some r -> r = Ok e -> rp_el e.
  Proof.
    unfold energy_law. intros H -> E. repeat match type of H with (if ?c then _ else _) = _ => destruct c end; try discriminate;
      match type of H with Some ?x = _ => assert (Q : x = Ok e) by congruence end; apply bind_ok in Q as (d & _ & Q); injection Q as <-; cbn [el_sample ebins_law dphoton_law level_law tabe_law gevap_law mw_law ev_law watt_law].
    - apply rp_eb.
    - apply rp_dp.
    - apply rp_lv.
    - apply rp_te.
    - apply rp_ge.
    - apply rp_mw.
    - apply rp_ev.
    - apply rp_w.
  Qed.
  Lemma rp_make_law a angle q law j d : (forall ad, angle = Some ad -> rp_ad ad) -> make_law a angle q law j = Ok d -> rp_ae d.
  Proof.
    intros C H E. unfold make_law in H. destruct (energy_law a law j (DLW a)) as [e|] eqn:El.
    - destruct angle as [ad|]; [|discriminate]. apply bind_ok in H as (e' & Ee & H). injection H as <-. apply (rp_uc (mkUC ad e')); [apply (C ad eq_refl)|exact (rp_energy_law _ _ _ _ _ _ El Ee E)].
    - destruct (law =? 44)%Z; [apply bind_ok in H as (x & _ & H); injection H as <-; apply rp_kal|].
      destruct (law =? 61)%Z; [apply bind_ok in H as (x & _ & H); injection H as <-; apply rp_tea|].
      destruct (law =? 66)%Z; [apply bind_ok in H as (x & _ & H); injection H as <-; apply rp_nb|discriminate].
  Qed.
  Lemma rp_law_loop a angle q : (forall ad, angle = Some ad -> rp_ad ad) -> forall n i l, law_loop n a angle q i = Ok l -> forall d p, In (d, p) l -> rp_ae d.
  Proof.
    intros C. induction n as [|n IH]; intros i l H d p I; [discriminate|]. cbn [law_loop] in H.
    apply bind_ok in H as (lnw & _ & H). apply bind_ok in H as (law & _ & H). apply bind_ok in H as (idat & _ & H). apply bind_ok in H as (r & _ & H). apply bind_ok in H as (p' & _ & H).
    apply bind_ok in H as (d' & E & H). apply rp_make_law in E; [|exact C]. destruct (lnw =? 0)%Z.
    - injection H as <-. destruct I as [I|[]]. injection I as -> _. exact E.
    - apply bind_ok in H as (l' & El & H). injection H as <-. destruct I as [I|I]; [injection I as -> _; exact E|]. exact (IH _ _ El _ _ I).
  Qed.
  Lemma make_multi_dists (l : list (aelaw T * tab T)) m : make_multi (map (fun p => Some (fst p)) l) (map (fun p => Some (tab_eval (snd p))) l) = Ok m -> md_dists m = map fst l.
  Proof.
    unfold make_multi. intros H. apply bind_ok in H as (? & _ & H). apply bind_ok in H as (? & _ & H).
    assert (A : forall B (f : aelaw T * tab T -> B), all_some (map (fun p => Some (f p)) l) = Some (map f l)).
    { intros B f. clear. induction l as [|x l IH]; cbn; [reflexivity|]. rewrite IH. reflexivity. }
    rewrite (A _ fst), (A _ (fun p => tab_eval (snd p))) in H. injection H as <-. reflexivity.
  Qed.
  Lemma rp_load a indx mt q awr cm d : load_neutron a indx mt q awr cm = Ok d -> rp_ae d.
  Proof.
    unfold load_neutron, load_neutron_fuel. intros H. apply bind_ok in H as (locb & _ & H). apply bind_ok in H as (angle & EA & H). apply bind_ok in H as (locc & _ & H). apply bind_ok in H as (l & EL & H). apply bind_ok in H as (d' & ED & H).
    assert (CA : forall ad, angle = Some ad -> rp_ad ad). { intros ad ->. destruct (0 <=? locb)%Z; [|discriminate]. apply bind_ok in EA as (x & EA & E0). injection E0 as ->. exact (rp_adist_of_ace _ _ _ EA). }
    pose proof (rp_law_loop a angle q CA _ _ _ EL) as Q. assert (D : rp_ae d').
    { destruct l as [|[d0 p0] [|[d1 p1] l]]; [discriminate| |].
      - injection ED as <-. exact (Q d0 p0 (or_introl eq_refl)).
      - apply bind_ok in ED as (m & EM & ED). injection ED as <-. intros E. apply rp_md. rewrite (make_multi_dists _ _ EM). apply Forall_forall. intros x I. apply in_map_iff in I as ([y p] & <- & I). exact (Q y p I E). }
    destruct cm; [|injection H as <-; exact D]. injection H as <-. intros E. apply rp_cm. apply D.
  Qed.
  Lemma rp_delayed a g e : load_delayed_law a g = Ok e -> rp_el e.
  Proof.
    unfold load_delayed_law. intros H. apply bind_ok in H as (locc & _ & H). apply bind_ok in H as (? & _ & H). apply bind_ok in H as (law & _ & H). apply bind_ok in H as (idat & _ & H).
    destruct (_ || _)%bool; [discriminate|]. destruct (energy_law _ _ _ _) as [r|] eqn:E; [|discriminate]. exact (rp_energy_law _ _ _ _ _ _ E H).
  Qed.
  Lemma rp_absorb mt : rp_ae (absorption_law mt). Proof. intros E. apply rp_throw. Qed.
  Lemma neutron_replay (n : neutron T) : neutron_obj load_neutron absorption_law load_delayed_law load_elastic_angle n ->
    (forall mt r E, neutron_reaction n mt = Ok r -> replayable (reaction_sample r E)) /\ (forall E, replayable (ae_sample (f_spectrum (n_fission n)) E)) /\
    (forall f E, In f (f_families (n_fission n)) -> replayable (el_sample (df_energy f) E)) /\ (forall E, replayable (adist_sample (n_elastic n) E)).
  Proof.
    intros O. destruct (neutron_all rp_ae rp_el rp_ad load_neutron absorption_law load_delayed_law load_elastic_angle) with (n := n) as (A & B & C & D); try assumption.
    - exact rp_load.
    - exact rp_absorb.
    - exact rp_delayed.
    - intros a e H. unfold load_elastic_angle in H. apply bind_ok in H as (l & _ & H). exact (rp_adist_of_ace _ _ _ H).
    - intros d H E. apply rp_sf. intros r I. apply H, I.
    - repeat split.
      + intros mt r E G. unfold reaction_sample. destruct (nltb _ _); [apply rp_ret|]. exact (A mt r G E).
      + exact B.
      + intros f E I. exact (C f I E).
      + exact D.
  Qed.
End Files.
Lemma reaction_replay {T : Type} {N : Num T} (a : ace T) i g r E : reaction_of_ace a i g = Ok r -> replayable (reaction_sample r E).
Proof.
  intros H. unfold reaction_sample. destruct (nltb _ _); [apply rp_ret|]. apply (reaction_P rp_ae load_neutron absorption_law rp_load rp_absorb a i g r H).
Qed.
Lemma elastic_replay {T : Type} {N : Num T} (e : elastic_obj T) (ad : adist T) E : (forall x, e_angle e x = adist_sample ad x) -> Forall (fun l => replayable (al_sample l)) (ad_laws ad) ->
  (e_brd e = svt_sample \/ exists xs, e_brd e = dbrc_sample xs) -> replayable (elastic_sample e E).
Proof.
  intros A L B. apply rp_elastic; [|rewrite A; apply rp_adist, L]. destruct B as [-> |[xs ->]]; [apply rp_svt|apply rp_dbrc].
Qed.
