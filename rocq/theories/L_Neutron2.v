(** * Evaluated neutron cross sections (exact arithmetic) *)
From Verif Require Import Base NumR L_Search L_SearchR M_Interp M_Tab1D M_Func M_Grid M_Packet M_PC M_Spectra M_Ace M_Neutron S_Grid S_Neutron L_PC L_Grid L_Xs L_Neutron L_Ace.
From Coq Require Import ZifyBool ZifyNat.
Local Open Scope R_scope.

(** the XSS array fits in memory *)

Lemma slice_size {A} (v : list A) lo hi w : slice v lo hi = Ok w -> sizeZ w = (hi - lo)%Z /\ (0 <= lo <= hi)%Z /\ (hi <= sizeZ v)%Z.
Proof.
  unfold slice. destruct (_ && _)%bool eqn:E; [|discriminate]. intros H. injection H as <-. split; [|lia].
  unfold sizeZ in *. rewrite firstn_length, skipn_length. lia.
Qed.
Lemma grid_of_ace_inv a NB g : fits a -> grid_of_ace a NB = Ok g -> (1 <= sizeZ (g_vals g) < 2 ^ 63)%Z /\ increasing (g_vals g) /\ 0 < getR (g_vals g) 0 /\ make_grid_ace (g_vals g) NB = Ok g.
Proof.
  intros F H. unfold grid_of_ace in H. apply bind_ok in H as (vals & Ev & H). apply bind_ok in H as (u & _ & H).
  apply slice_size in Ev as (S & S1 & S2). unfold fits in F.
  assert (V : g_vals g = vals).
  { unfold make_grid_ace in H. apply bind_ok in H as (u1 & _ & H). apply bind_ok in H as (f & _ & H). destruct (nleb f (nofZ 0)); [discriminate|].
    unfold hash_grid in H. apply bind_ok in H as (f1 & _ & H). apply bind_ok in H as (b1 & _ & H). apply bind_ok in H as (p & _ & H). injection H as <-. reflexivity. }
  rewrite V. assert (H' := H). unfold make_grid_ace in H. apply bind_ok in H as (u1 & G & H). apply guard_ok in G. apply is_sorted_increasing in G.
  apply bind_ok in H as (f & Ef & H). unfold frontR in Ef. apply atR_inv in Ef as [E1 ->]. change (@nleb R NumR) with Rleb in H. change (@nofZ R NumR 0) with 0 in H.
  destruct (Rleb_spec (getR vals 0) 0) as [L|L]; [discriminate|]. split; [lia|]. auto.
Qed.
Lemma grid_of_ace_ok a NB g : fits a -> bins_ok NB -> grid_of_ace a NB = Ok g -> (sizeZ (g_vals g) < 2 ^ 32)%Z -> grid_ok (g_vals g) /\ hashed g (g_vals g) NB.
Proof.
  intros F [B1 B2] H S. destruct (grid_of_ace_inv a NB g F H) as (G1 & G2 & G3 & G4).
  assert (G : grid_ok (g_vals g)) by (split; [lia|auto]). split; [exact G|].
  destruct (make_grid_ok _ NB G B1) as (g' & _ & E & K). rewrite G4 in E. injection E as <-. exact K.
Qed.

(** a cross section object on grid [g]; nonnegative unless a heating number *)
Record xs_on (g : egrid R) (x : xsec R) : Prop := { xo_ok : xs_ok x; xo_g : x_grid x = g }.
Lemma make_xs_ace_ok i1 vals g h x : grid_ok (g_vals g) -> (sizeZ vals < 2 ^ 32)%Z -> @make_xs_ace R NumR i1 vals g h = Ok x ->
  x_grid x = g /\ x_vals x = vals /\ x_index x = wrap32 (i1 - 1) /\ x_single x = false /\ (wrap32 (i1 - 1) <= sizeZ (g_vals g))%Z /\ sizeZ vals = (sizeZ (g_vals g) - wrap32 (i1 - 1))%Z /\ (h = false -> nonneg vals).
Proof.
  intros (G & _) S H. unfold make_xs_ace in H. destruct (negb _) eqn:E; [discriminate|]. destruct (negb h && any_negative vals)%bool eqn:E2; [discriminate|].
  injection H as <-. cbn. repeat (split; [reflexivity|]).
  assert (W : (0 <= wrap32 (i1 - 1) < 2 ^ 32)%Z) by (apply Z.mod_pos_bound; lia). set (w := wrap32 (i1 - 1)) in *.
  assert (Q : wrap64 (sizeZ (g_vals g) - w) = sizeZ vals) by lia.
  assert (w <= sizeZ (g_vals g))%Z.
  { destruct (Z_le_dec w (sizeZ (g_vals g))); [assumption|exfalso]. unfold wrap64 in Q. rewrite <- (Z.mod_unique (sizeZ (g_vals g) - w) (2 ^ 64) (-1) (sizeZ (g_vals g) - w + 2 ^ 64)) in Q; lia. }
  rewrite wrap64_id in Q by lia. split; [assumption|]. split; [lia|]. intros ->. apply any_negative_R. cbn in E2. exact E2.
Qed.
Lemma xs_of_ace_size a i g h x : (1 <= sizeZ (g_vals g) < 2 ^ 63)%Z -> xs_of_ace a i g h = Ok x -> (sizeZ (g_vals g) < 2 ^ 32)%Z.
Proof.
  intros G H. unfold xs_of_ace in H. apply bind_ok in H as (vals & Ev & H). apply slice_size in Ev as (S & _).
  unfold make_xs_ace in H. destruct (negb _) eqn:E; [discriminate|]. assert (W : (0 <= wrap32 (nxs a 2) < 2 ^ 32)%Z) by (apply Z.mod_pos_bound; lia).
  change (wrap32 (1 - 1)) with 0%Z in E. rewrite wrap64_id in E by lia. lia.
Qed.
Lemma xs_of_ace_ok a i g h x : grid_ok (g_vals g) -> xs_of_ace a i g h = Ok x -> xs_on g x /\ x_index x = 0%Z /\ (h = false -> nonneg (x_vals x)).
Proof.
  intros G H. unfold xs_of_ace in H. apply bind_ok in H as (vals & Ev & H). apply slice_size in Ev as (S & _).
  assert (W : (0 <= wrap32 (nxs a 2) < 2 ^ 32)%Z) by (apply Z.mod_pos_bound; lia).
  assert (Sv : (sizeZ vals < 2 ^ 32)%Z) by lia. destruct (make_xs_ace_ok _ _ _ _ _ G Sv H) as (X1 & X2 & X3 & X4 & X5 & X6 & X7). change (wrap32 (1 - 1)) with 0%Z in *.
  split; [|split; [exact X3|rewrite X2; exact X7]]. split; [|exact X1]. split; rewrite ?X1, ?X2, ?X3; try assumption; try reflexivity. destruct G as (G & _); lia.
Qed.
Lemma u32_read a i z : xss_u32 a i = Ok z -> u32 z.
Proof.
  unfold xss_u32. intros H. apply bind_ok in H as (x & _ & H). unfold trunc_u32 in H. destruct (nfloor x) as [k|]; [|discriminate].
  destruct (0 <=? k)%Z eqn:A; [destruct (k <? 2 ^ 32)%Z eqn:B; [injection H as <-; unfold u32; lia|discriminate]|].
  destruct (nltb _ x); [injection H as <-; unfold u32; lia|discriminate].
Qed.
Lemma reaction_xs_ok a indx g x th : grid_ok (g_vals g) -> read_reaction_xs a indx g = Ok (x, th) -> xs_on g x /\ nonneg (x_vals x) /\ th = getR (g_vals g) (x_index x).
Proof.
  intros G H. unfold read_reaction_xs in H. apply bind_ok in H as (loca & _ & H). apply bind_ok in H as (x' & Ex & H). apply bind_ok in H as (th' & Et & H). injection H as -> ->.
  unfold xs_of_ace_indexed in Ex. apply bind_ok in Ex as (i1 & _ & Ex). apply bind_ok in Ex as (NE & En & Ex). apply bind_ok in Ex as (vals & Ev & Ex).
  apply u32_read in En. unfold u32 in En. apply slice_size in Ev as (S & _).
  assert (Sv : (sizeZ vals < 2 ^ 32)%Z) by lia. destruct (make_xs_ace_ok _ _ _ _ _ G Sv Ex) as (X1 & X2 & X3 & X4 & X5 & X6 & X7).
  unfold xs_energy in Et. apply atR_inv in Et as [B ->]. rewrite X1 in *.
  split; [|split; [rewrite X2; apply X7; reflexivity|rewrite Z.add_0_r; reflexivity]].
  split; [|exact X1]. split; rewrite ?X1, ?X2; try assumption; rewrite ?X3 in *; lia.
Qed.

(** ** every reaction of an object has a cross section on the object's grid *)
Definition good (g : egrid R) (x : xsec R) : Prop := xs_on g x /\ nonneg (x_vals x).
Section All.
  Context {T : Type} {N : Num T}.
  Variable P : reaction T -> Prop.
  Lemma reaction_loop_all mk a : (forall mt i r, mk mt i = Ok r -> P r) -> forall n indx mts idx rs mts' idx' rs', Forall P rs ->
    reaction_loop mk n a indx mts idx rs = Ok (mts', idx', rs') -> Forall P rs'.
  Proof.
    intros Hm. induction n as [|n IH]; cbn [reaction_loop]; intros indx mts idx rs mts' idx' rs' F E; [injection E as _ _ <-; exact F|].
    apply bind_ok in E as (mt & Em & E). destruct (is_fission_mt mt); [eapply IH; eauto|]. apply bind_ok in E as (r & Er & E). apply bind_ok in E as (i & Ei & E).
    eapply IH; [|exact E]. apply Forall_app. split; [exact F|]. constructor; [eapply Hm; eauto|constructor].
  Qed.
  Lemma fission_loop_all mk a : (forall mt i r, mk mt i = Ok r -> P r) -> forall n indx s s', (forall mt r, slot s mt = Some r -> P r) ->
    fission_loop mk n a indx s = Ok s' -> forall mt r, slot s' mt = Some r -> P r.
  Proof.
    intros Hm. induction n as [|n IH]; cbn [fission_loop]; intros indx s s' F E; [injection E as <-; exact F|].
    apply bind_ok in E as (mt & Em & E). apply bind_ok in E as (s1 & E1 & E). eapply IH; [|exact E]. destruct (is_fission_mt mt) eqn:D; [|injection E1 as <-; exact F].
    apply bind_ok in E1 as (r & Er & E1). injection E1 as <-. intros m r'. rewrite slot_set by assumption. destruct (m =? mt)%Z; [|apply F].
    intros H. injection H as <-. eapply Hm; eauto.
  Qed.
End All.

  Definition zero_xs (g : egrid R) (x : xsec R) : Prop := x = mkXs g [0] 0 true.
  Lemma make_zero g x : @make_xs_single R NumR (nofZ 0) g = Ok x -> zero_xs g x.
  Proof.
    unfold make_xs_single. change (@nltb R NumR) with Rltb. change (@nofZ R NumR 0) with 0. replace (Rltb 0 0) with false by (symmetry; apply Rltb_false; lra).
    intros H. injection H as <-. reflexivity.
  Qed.
  Lemma fission_xs_good fissile f g x : grid_ok (g_vals g) -> (forall r, f18 f = Some r -> good g (rx_xs r)) -> compute_fission_xs fissile f g = Ok x -> good g x \/ zero_xs g x.
  Proof.
    intros G F H. unfold compute_fission_xs in H. destruct (negb fissile); [right; apply make_zero; exact H|].
    destruct (f18 f) as [r|]; [injection H as <-; left; apply F; reflexivity|]. left.
    apply bind_ok in H as (v & Ev & H). set (lo := lowest _ _) in *.
    assert (W : (0 <= wrap32 lo < 2 ^ 32)%Z) by (apply Z.mod_pos_bound; lia).
    assert (Q : make_xs v g (wrap32 lo) = Ok x). { rewrite <- H. unfold make_xs. rewrite (wrap32_id (wrap32 lo)) by exact W. reflexivity. }
    destruct (make_xs_spec v g (wrap32 lo) G W) as [[(C1 & C2 & C3) (x' & Ex & X1 & X2 & X3 & X4)]|[_ Ex]]; rewrite Q in Ex; [|discriminate].
    injection Ex as <-. split; [split; assumption|]. rewrite X3. exact C2.
  Qed.

  (** *** evaluation at a known lower index *)
  Lemma good_eval_i g x E i : grid_ok (g_vals g) -> strictly_increasing (g_vals g) -> xs_on g x -> brackets (g_vals g) E i -> getR (g_vals g) 0 <= E ->
    exists v, @xs_eval_i R NumR x E i = Ok v /\ (nonneg (x_vals x) -> 0 <= v) /\ (E <> getR (g_vals g) (x_index x) \/ x_index x = 0%Z -> @xs_eval R NumR x E = Ok v) /\
      (v <> 0 -> @xs_eval R NumR x E = Ok v).
  Proof.
    intros G SI [X Xg] B H0. pose proof X as [XG XS XI XZ]. rewrite Xg in *.
    assert (Hi : (0 <= i < sizeZ (g_vals g))%Z) by (destruct G as (Gs & _); destruct B as [[? ?]|[(? & ? & ?)|(? & ? & ?)]]; lia).
    destruct (Req_EM_T E (getR (g_vals g) (x_index x))) as [Q|Q]; [destruct (Z_lt_dec i (x_index x)) as [L|L]|].
    - exists 0. split; [|split; [intros _; lra|split; [|intros C; exfalso; apply C; reflexivity]]].
      + unfold xs_eval_i. rewrite XS. replace (i <? x_index x)%Z with true by lia. reflexivity.
      + intros [C|C]; [contradiction|lia].
    - assert (A : @xs_eval_i R NumR x E i = @xs_eval R NumR x E).
      { apply xs_eval_i_agrees; rewrite ?Xg; try assumption. intros _.
        destruct (Z.eq_dec (x_index x) 0) as [Z0|Z0]; [left; exact Z0|right]. destruct G as (Gs & Gi & Gp).
        destruct B as [[B1 B2]|[(B1 & B2 & B3)|(B1 & B2 & B3)]]; [|lia|].
        - subst i. lia.
        - exfalso. assert (getR (g_vals g) (x_index x) <= getR (g_vals g) i) by (apply Gi; lia). lra. }
      destruct (xs_eval_spec x E X) as (v & Ev & V). exists v. rewrite A. split; [exact Ev|]. split; [|auto]. intros P. eapply xs_value_nonneg; eauto.
    - assert (A : @xs_eval_i R NumR x E i = @xs_eval R NumR x E).
      { apply xs_eval_i_agrees; rewrite ?Xg; try assumption. intros C; contradiction. }
      destruct (xs_eval_spec x E X) as (v & Ev & V). exists v. rewrite A. split; [exact Ev|]. split; [|auto]. intros P. eapply xs_value_nonneg; eauto.
  Qed.
  Lemma zero_eval_i g x E i : grid_ok (g_vals g) -> zero_xs g x -> @xs_eval_i R NumR x E i = Ok 0 /\ @xs_eval R NumR x E = Ok 0.
  Proof.
    intros (Gs & _) ->. unfold xs_eval_i, xs_eval. cbn [x_single x_grid x_vals]. rewrite frontR_R by lia. cbn [bind]. destruct (nltb _ _); split; reflexivity.
  Qed.

Section Neutron.
  Variable load : ace R -> Z -> Z -> R -> R -> bool -> res (aelaw R).
  Variable absorb : Z -> aelaw R.
  Variable load_delayed : ace R -> Z -> res (elaw R).
  Variable load_elastic : ace R -> res (adist R).
  Notation make_reaction := (make_reaction load absorb).
  Notation make_neutron := (make_neutron load absorb load_delayed load_elastic).
  Notation neutron_obj := (neutron_obj load absorb load_delayed load_elastic).

  Lemma make_reaction_good a i g r : grid_ok (g_vals g) -> make_reaction a i g = Ok r -> good g (rx_xs r) /\ rx_threshold r = getR (g_vals g) (x_index (rx_xs r)).
  Proof.
    intros G. unfold M_Neutron.make_reaction. intros H. apply bind_ok in H as (mt & Em & H). apply bind_ok in H as (q & _ & H). apply bind_ok in H as (y & _ & H).
    apply bind_ok in H as (yf & _ & H). apply bind_ok in H as (d & _ & H). apply bind_ok in H as ([x th] & Ex & H). injection H as <-. cbn.
    destruct (reaction_xs_ok _ _ _ _ _ G Ex) as (A & B & C). split; [split; assumption|exact C].
  Qed.
  Lemma make_reaction_from_good a i g r0 r : grid_ok (g_vals g) -> make_reaction_from a i g r0 = Ok r -> good g (rx_xs r) /\ rx_threshold r = getR (g_vals g) (x_index (rx_xs r)).
  Proof.
    intros G. unfold make_reaction_from. intros H. apply bind_ok in H as (u & _ & H). apply bind_ok in H as ([x th] & Ex & H). injection H as <-. cbn.
    destruct (reaction_xs_ok _ _ _ _ _ G Ex) as (A & B & C). split; [split; assumption|exact C].
  Qed.
  Record neutron_good (n : neutron R) : Prop := {
    ng_grid : grid_ok (g_vals (n_grid n));
    ng_hash : exists NB, bins_ok NB /\ hashed (n_grid n) (g_vals (n_grid n)) NB;
    ng_total : good (n_grid n) (n_total n) /\ x_index (n_total n) = 0%Z;
    ng_dis : good (n_grid n) (n_disappearance n) /\ x_index (n_disappearance n) = 0%Z;
    ng_ela : good (n_grid n) (n_elastic_xs n) /\ x_index (n_elastic_xs n) = 0%Z;
    ng_hea : xs_on (n_grid n) (n_heating n) /\ x_index (n_heating n) = 0%Z;
    ng_fis : good (n_grid n) (n_fission_xs n) \/ zero_xs (n_grid n) (n_fission_xs n);
    ng_reac : Forall (fun r => good (n_grid n) (rx_xs r) /\ rx_threshold r = getR (g_vals (n_grid n)) (x_index (rx_xs r))) (n_reactions n);
    ng_slots : forall mt r, slot (fis_slots (n_fission n)) mt = Some r -> good (n_grid n) (rx_xs r) /\ rx_threshold r = getR (g_vals (n_grid n)) (x_index (rx_xs r)) }.

  Lemma main_xs_inv a g NB tot dis ela hea pho : fits a -> bins_ok NB -> grid_of_ace a NB = Ok g -> read_main_xs a g = Ok (tot, dis, ela, hea, pho) ->
    grid_ok (g_vals g) /\ hashed g (g_vals g) NB /\ (good g tot /\ x_index tot = 0%Z) /\ (good g dis /\ x_index dis = 0%Z) /\ (good g ela /\ x_index ela = 0%Z) /\ (xs_on g hea /\ x_index hea = 0%Z).
  Proof.
    intros F B Eg H. unfold read_main_xs in H. apply bind_ok in H as (x1 & E1 & H). apply bind_ok in H as (x2 & E2 & H). apply bind_ok in H as (x3 & E3 & H).
    apply bind_ok in H as (x4 & E4 & H). apply bind_ok in H as (x5 & _ & H). injection H as -> -> -> -> ->.
    destruct (grid_of_ace_inv a NB g F Eg) as (G1 & _). pose proof (xs_of_ace_size _ _ _ _ _ G1 E1) as S.
    destruct (grid_of_ace_ok a NB g F B Eg S) as [G K]. split; [exact G|]. split; [exact K|].
    destruct (xs_of_ace_ok _ _ _ _ _ G E1) as (A1 & A2 & A3). destruct (xs_of_ace_ok _ _ _ _ _ G E2) as (B1 & B2 & B3).
    destruct (xs_of_ace_ok _ _ _ _ _ G E3) as (C1 & C2 & C3). destruct (xs_of_ace_ok _ _ _ _ _ G E4) as (D1 & D2 & D3).
    repeat split; auto; try apply A1; try apply B1; try apply C1; try apply D1.
  Qed.
  Lemma neutron_is_good NB a n : fits a -> bins_ok NB -> make_neutron NB a = Ok n -> neutron_good n.
  Proof.
    intros F B H. destruct (neutron_parts _ _ _ _ _ _ _ H) as (g & [[[[tot dis] ela] hea] pho] & mts & idx & rs & f & Eg & Ex & El & Ef & En).
    destruct (finish_fields _ _ _ _ _ _ _ _ _ _ _ En) as (F1 & F2 & F3 & F4 & F5 & F6 & F7). injection F6 as F61 F62 F63 F64 F65.
    destruct (main_xs_inv _ _ _ _ _ _ _ _ F B Eg Ex) as (G & K & X1 & X2 & X3 & X4).
    assert (SL : forall mt r, slot (fis_slots f) mt = Some r -> good g (rx_xs r) /\ rx_threshold r = getR (g_vals g) (x_index (rx_xs r))).
    { unfold M_Neutron.make_fission in Ef. apply bind_ok in Ef as (ns & _ & Ef). destruct (a_fissile a).
      - apply bind_ok in Ef as (fam & _ & Ef). apply bind_ok in Ef as (s & Es & Ef). apply bind_ok in Ef as (ps & _ & Ef). injection Ef as <-.
        intros mt r Hs.
        assert (N0 : forall mt (r : reaction R), slot no_slots mt = Some r -> good g (rx_xs r) /\ rx_threshold r = getR (g_vals g) (x_index (rx_xs r))).
        { intros m q Hn. exfalso. unfold slot, get_slot in Hn. cbn in Hn. repeat destruct (_ =? _)%Z in Hn; discriminate. }
        revert mt r Hs. unfold fis_slots. cbn. destruct s; cbn. eapply (fission_loop_all (fun r => good g (rx_xs r) /\ rx_threshold r = getR (g_vals g) (x_index (rx_xs r)))); [|exact N0|exact Es].
        intros mt' i r' Er. exact (make_reaction_good a _ g _ G Er).
      - injection Ef as <-. intros mt r Hn. exfalso. unfold slot, get_slot in Hn. cbn in Hn. repeat destruct (_ =? _)%Z in Hn; discriminate. }
    split; rewrite ?F5; try (rewrite ?F61, ?F62, ?F63, ?F64; assumption).
    - exists NB. auto.
    - eapply fission_xs_good; [exact G| |exact F7]. intros r Hr. apply (SL 18%Z). exact Hr.
    - rewrite F3. eapply reaction_loop_all; [|constructor|exact El]. intros mt i r Er. exact (make_reaction_good a _ g _ G Er).
    - rewrite F4. exact SL.
  Qed.

  Lemma neutron_eval n E : neutron_obj n -> neutron_good n -> strictly_increasing (g_vals (n_grid n)) -> getR (g_vals (n_grid n)) 0 <= E ->
    exists p d, neutron_xs n E = Ok p /\ xs_eval (n_total n) E = Ok (total p) /\ xs_eval (n_elastic_xs n) E = Ok (elastic p) /\ xs_eval (n_disappearance n) E = Ok d /\
      xs_eval (n_heating n) E = Ok (heating p) /\
      (E <> getR (g_vals (n_grid n)) (x_index (n_fission_xs n)) \/ x_index (n_fission_xs n) = 0%Z -> xs_eval (n_fission_xs n) E = Ok (fission p)) /\
      (~ In 102%Z (n_mts n) -> capture p = 0) /\
      (forall r, neutron_reaction n 102 = Ok r -> E <> getR (g_vals (n_grid n)) (x_index (rx_xs r)) \/ x_index (rx_xs r) = 0%Z -> xs_eval (rx_xs r) E = Ok (capture p)) /\
      absorption p = d + fission p /\ inelastic p = Rmax 0 (total p - elastic p - absorption p) /\
      0 <= total p /\ 0 <= elastic p /\ 0 <= inelastic p /\ 0 <= absorption p /\ 0 <= fission p /\ 0 <= capture p /\ 0 <= d.
  Proof.
    intros O [G (NB & [B1 B2] & K) [[T1 T2] T3] [[D1 D2] D3] [[L1 L2] L3] [H1 H3] F RS SL] SI HE. unfold neutron_xs.
    destruct (get_lower_index_spec (g_vals (n_grid n)) NB (n_grid n) G B1 B2 K E) as (i & Ei & Br). rewrite Ei. cbn [bind]. unfold neutron_xs_i.
    destruct (good_eval_i _ _ E i G SI T1 Br HE) as (t & Et & Pt & At & _). rewrite Et. cbn [bind].
    destruct (good_eval_i _ _ E i G SI L1 Br HE) as (e & Ee & Pe & Ae & _). rewrite Ee. cbn [bind].
    assert (FF : exists fv, @xs_eval_i R NumR (n_fission_xs n) E i = Ok fv /\ 0 <= fv /\ (E <> getR (g_vals (n_grid n)) (x_index (n_fission_xs n)) \/ x_index (n_fission_xs n) = 0%Z -> @xs_eval R NumR (n_fission_xs n) E = Ok fv)).
    { destruct F as [[F1 F2]|F1].
      - destruct (good_eval_i _ _ E i G SI F1 Br HE) as (fv & Ef & Pf & Af & _). exists fv. auto.
      - destruct (zero_eval_i _ _ E i G F1) as [Z1 Z2]. exists 0. split; [exact Z1|]. split; [lra|]. intros _. exact Z2. }
    destruct FF as (fv & Ef & Pf & Af). rewrite Ef. cbn [bind].
    destruct (good_eval_i _ _ E i G SI D1 Br HE) as (d & Ed & Pd & Ad & _). rewrite Ed. cbn [bind].
    destruct (good_eval_i _ _ E i G SI H1 Br HE) as (h & Eh & Ph & Ah & _). rewrite Eh. cbn [bind].
    destruct (obj_lookup _ _ _ _ n O 102%Z ltac:(lia)) as [I1 I2].
    assert (CC : exists c, (let! hh := neutron_has n 102 in (if hh then let! r := neutron_reaction n 102 in xs_eval_i (rx_xs r) E i else Ok (@nofZ R NumR 0))) = Ok c /\ 0 <= c /\
      (~ In 102%Z (n_mts n) -> c = 0) /\ (forall r, neutron_reaction n 102 = Ok r -> E <> getR (g_vals (n_grid n)) (x_index (rx_xs r)) \/ x_index (rx_xs r) = 0%Z -> @xs_eval R NumR (rx_xs r) E = Ok c)).
    { destruct (in_dec Z.eq_dec 102%Z (n_mts n)) as [I|I].
      - destruct (I1 I) as (J1 & r & J2 & J3). rewrite J1, J2. cbn [bind].
        assert (GR : good (n_grid n) (rx_xs r)).
        { unfold neutron_reaction, get_reaction in J2. apply bind_ok in J2 as (hh & _ & J2). destruct (negb hh); [discriminate|].
          change (is_fission_mt 102) with false in J2. cbn match in J2. apply bind_ok in J2 as (k & _ & J2). rewrite Forall_forall in RS. apply RS. apply atZ_In in J2. exact J2. }
        destruct (good_eval_i _ _ E i G SI (proj1 GR) Br HE) as (c & Ec & Pc & Ac & _). exists c. split; [exact Ec|]. split; [apply Pc, GR|].
        split; [intros C; contradiction|]. intros r' Hr. injection Hr as <-. exact Ac.
      - destruct (I2 I) as (J1 & J2). rewrite J1, J2. cbn [bind]. exists 0. split; [reflexivity|]. split; [lra|]. split; [reflexivity|discriminate]. }
    destruct CC as (c & Ec & Pc & C1 & C2).
    assert (XX : forall (k : R -> res (packet R)), (let! hh := neutron_has n 102 in (let! cap := (if hh then let! r := neutron_reaction n 102 in xs_eval_i (rx_xs r) E i else Ok (@nofZ R NumR 0)) in k cap)) = k c).
    { intros k. destruct (neutron_has n 102); cbn [bind] in *; try discriminate. rewrite Ec. reflexivity. }
    rewrite XX. eexists. exists d. split; [reflexivity|]. cbn [total elastic inelastic absorption fission capture heating].
    split; [apply At; auto|]. split; [apply Ae; auto|]. split; [apply Ad; auto|]. split; [apply Ah; auto|]. split; [exact Af|].
    split; [exact C1|]. split; [exact C2|]. change (@nadd R NumR) with Rplus. change (@nsub R NumR) with Rminus. change (@nltb R NumR) with Rltb. change (@nofZ R NumR 0) with 0.
    assert (0 <= d) by (apply Pd; assumption). assert (0 <= t) by (apply Pt; assumption). assert (0 <= e) by (apply Pe; assumption).
    split; [reflexivity|]. split.
    { unfold Rmax. destruct (Rltb_spec (t - e - (d + fv)) 0), (Rle_dec 0 (t - e - (d + fv))); lra. }
    repeat (split; [assumption|]). split; [|lra]. destruct (Rltb_spec (t - e - (d + fv)) 0); lra.
  Qed.
End Neutron.
