(** * Reactions read from an ACE file: cosines, decoding, delayed families *)
From Coq Require Import Reals Lra Lia List ZifyBool ZifyNat.
From Verif Require Import Base NumR L_Search L_SearchR M_Interp M_Tab1D M_Func M_Grid M_PC M_OutE M_Spectra M_Kin M_Ace M_Neutron M_Laws S_Neutron S_Laws L_Grid L_Xs L_Neutron L_Neutron2 L_PC L_Angle L_Kin L_OutE4 L_Spectra L_Ace L_Laws L_Laws2.
Import ListNotations.
Local Open Scope R_scope.

Local Open Scope num_scope.
Local Open Scope R_scope.
(** ** cosines *)
Lemma in_mapR {A B} (f : A -> res B) l r y : mapR f l = Ok r -> In y r -> exists x, In x l /\ f x = Ok y.
Proof.
  revert r. induction l as [|x l IH]; intros r H I; cbn in H; [injection H as <-; destruct I|].
  apply bind_ok in H as (y0 & E & H). apply bind_ok in H as (r0 & E0 & H). injection H as <-. destruct I as [<-|I]; [exists x; split; [left; reflexivity|exact E]|].
  destruct (IH r0 E0 I) as (x' & I' & E'). exists x'. split; [right; exact I'|exact E'].
Qed.
Lemma angle_law_cosine a k l : angle_law_of_ace a k = Ok l -> cosine_law l.
Proof.
  unfold angle_law_of_ace. intros H. repeat (apply bind_ok in H as (? & _ & H)). destruct (0 <? _)%Z.
  - apply bind_ok in H as (b & E & H). injection H as <-. unfold bins_of_ace in E. apply bind_ok in E as (b0 & _ & E). apply make_bins_spec in E as (-> & L & _). apply bins_cosine, L.
  - destruct (_ <? 0)%Z; [apply bind_ok in H as (t & _ & H); injection H as <-; apply angle_table_cosine|injection H as <-; apply isotropic_cosine].
Qed.
Lemma adist_of_ace_cosine a locb d : adist_of_ace a locb = Ok d -> forall l, In l (ad_laws d) -> cosine_law l.
Proof.
  unfold adist_of_ace. destruct (locb <? 0)%Z; [discriminate|]. destruct (0 <? locb)%Z.
  - intros H. do 5 (apply bind_ok in H as (? & _ & H)). apply bind_ok in H as (laws & E & H). injection H as <-. cbn. intros l I.
    destruct (in_mapR _ _ _ _ E I) as (k & _ & El). exact (angle_law_cosine _ _ _ El).
  - intros H. injection H as <-. cbn. intros l [<-|[]]. apply isotropic_cosine.
Qed.
Lemma uncor_cosine ad e : (forall l, In l (ad_laws ad) -> cosine_law l) -> cosine_ae (uncor_law (mkUC ad e)).
Proof.
  intros C E ds mu x ds' D H. cbn in H. unfold uc_sample in H. apply rbind_ok in H as (m & d1 & H1 & H). apply rbind_ok in H as (v & d2 & _ & H).
  apply rret_ok in H as [H _]. injection H as -> _. exact (adist_cosine _ _ _ _ _ C D H1).
Qed.
Lemma kal_mu_cosine rv av ds mu ds' : @kal_mu R NumR rv av ds = Ok (mu, ds') -> -1 <= mu <= 1.
Proof.
  unfold kal_mu. intros H. apply rbind_ok in H as (x & d1 & _ & H). destruct (_ >~ _); apply rbind_ok in H as (y & d2 & _ & H); apply rret_ok in H as [<- _]; apply clamp_mu_bounds.
Qed.
Lemma kal_cosine d : cosine_ae (kal_law d).
Proof.
  intros E ds mu e ds' _ H. cbn in H. unfold kal_sample in H. apply rbind_ok in H as ([l f] & d1 & _ & H). apply rbind_ok in H as (u & d2 & _ & H).
  apply rbind_ok in H as (x1 & d3 & _ & H). apply rbind_ok in H as (x2 & d4 & _ & H). destruct (if _ >~ f then _ else _) as [[t p] q].
  apply rbind_ok in H as (h & d5 & _ & H). apply rbind_ok in H as (rv & d6 & _ & H). apply rbind_ok in H as (av & d7 & _ & H). apply rbind_ok in H as (m & d8 & H8 & H).
  apply rret_ok in H as [H _]. injection H as -> _. exact (kal_mu_cosine _ _ _ _ _ H8).
Qed.
Lemma ea_cosine t ds mu e ds' : @ea_sample R NumR t ds = Ok ((mu, e), ds') -> -1 <= mu <= 1.
Proof.
  unfold ea_sample. intros H. apply rbind_ok in H as (xi & d1 & _ & H). apply rbind_ok in H as (k & d2 & _ & H). apply rbind_ok in H as (fl & d3 & _ & H).
  destruct fl; repeat (apply rbind_ok in H as (? & ? & _ & H)); apply rret_ok in H as [H _]; injection H as <- _; apply clamp_mu_bounds.
Qed.
Lemma tea_cosine d : cosine_ae (tea_law d).
Proof.
  intros E ds mu e ds' _ H. cbn in H. unfold tea_sample in H. apply rbind_ok in H as ([l f] & d1 & _ & H). apply rbind_ok in H as (u & d2 & _ & H).
  apply rbind_ok in H as (x1 & d3 & _ & H). destruct (_ >~ f); apply rbind_ok in H as ([m v] & d4 & H4 & H); apply rret_ok in H as [H _]; injection H as <- _; exact (ea_cosine _ _ _ _ _ H4).
Qed.
Lemma nb_maxwell_draws ds x ds' : draws01 ds -> @nb_maxwell R NumR ds = Ok (x, ds') -> draws01 ds'.
Proof.
  intros D H. unfold nb_maxwell in H. apply rbind_ok in H as (u & d1 & H1 & H). apply rbind_ok in H as (v & d2 & H2 & H). apply rbind_ok in H as (w & d3 & H3 & H).
  apply draw_ok in H1, H2, H3. apply rret_ok in H as [_ <-]. subst. do 3 apply draws01_tl in D. exact D.
Qed.
Lemma nb_y_draws n ds x ds' : draws01 ds -> @nb_y R NumR n ds = Ok (x, ds') -> draws01 ds'.
Proof.
  intros D H. unfold nb_y in H. destruct (n =? 3)%Z; [exact (nb_maxwell_draws _ _ _ D H)|].
  destruct (n =? 4)%Z; [|destruct (n =? 5)%Z];
    repeat (let u := fresh "u" in let d := fresh "d" in let E := fresh "E" in apply rbind_ok in H as (u & d & E & H); apply draw_ok in E; subst; apply draws01_tl in D);
    apply rret_ok in H as [_ <-]; exact D.
Qed.
Lemma nbody_cosine d : cosine_ae (nbody_law d).
Proof.
  intros E ds mu e ds' D H. cbn in H. unfold nb_sample in H. apply rbind_ok in H as (x & d1 & H1 & H). apply rbind_ok in H as (y & d2 & H2 & H). apply rbind_ok in H as (u & d3 & H3 & H).
  apply nb_maxwell_draws in H1; [|exact D]. apply nb_y_draws in H2; [|exact H1]. apply draw_ok in H3. subst d2. pose proof (H2 u (or_introl eq_refl)).
  apply rret_ok in H as [H _]. injection H as <- _. rnum. lra.
Qed.
Lemma md_loop_cosine E ds0 : forall dists probs xi sum last, draws01 ds0 -> (forall d, In d dists -> cosine_ae d) ->
  (forall mu e ds', last ds0 = Ok ((mu, e), ds') -> -1 <= mu <= 1) -> forall mu e ds', @md_loop R NumR dists probs E xi sum last ds0 = Ok ((mu, e), ds') -> -1 <= mu <= 1.
Proof.
  induction dists as [|d dists IH]; intros probs xi sum last D C L mu e ds' H; cbn in H; [exact (L _ _ _ H)|]. destruct probs as [|p probs]; [discriminate|].
  apply rbind_ok in H as (v & d1 & H1 & H). apply rlift_ok in H1 as [_ <-]. match type of H with context [if ?c then _ else _] => destruct c end.
  - exact (C d (or_introl eq_refl) _ _ _ _ _ D H).
  - refine (IH probs _ _ _ D _ L _ _ _ H). intros; apply C; right; assumption.
Qed.
Lemma multi_cosine m : (forall d, In d (md_dists m) -> cosine_ae d) -> cosine_ae (multi_law m).
Proof.
  intros C E ds mu e ds' D H. cbn in H. unfold md_sample in H. apply rbind_ok in H as (xi & d1 & H1 & H). apply draw_ok in H1. subst ds. apply draws01_tl in D.
  apply (md_loop_cosine E d1 _ _ _ _ _ D C) in H; [exact H|]. intros mu' e' ds'' H'. apply rbind_ok in H' as (d & d2 & H2 & H'). apply rlift_ok in H2 as [H2 <-].
  refine (C d _ _ _ _ _ _ D H'). exact (atZ_In _ _ _ H2).
Qed.
Lemma make_law_cosine a angle q law j d : (forall ad, angle = Some ad -> forall l, In l (ad_laws ad) -> cosine_law l) -> make_law a angle q law j = Ok d -> cosine_ae d.
Proof.
  intros C H. unfold make_law in H. destruct (energy_law a law j (DLW a)) as [e|].
  - destruct angle as [ad|]; [|discriminate]. apply bind_ok in H as (e' & _ & H). injection H as <-. apply uncor_cosine. exact (C ad eq_refl).
  - destruct (law =? 44)%Z; [apply bind_ok in H as (x & _ & H); injection H as <-; apply kal_cosine|].
    destruct (law =? 61)%Z; [apply bind_ok in H as (x & _ & H); injection H as <-; apply tea_cosine|].
    destruct (law =? 66)%Z; [apply bind_ok in H as (x & _ & H); injection H as <-; apply nbody_cosine|discriminate].
Qed.
Lemma law_loop_cosine a angle q : (forall ad, angle = Some ad -> forall l, In l (ad_laws ad) -> cosine_law l) -> forall n i l, law_loop n a angle q i = Ok l -> forall d p, In (d, p) l -> cosine_ae d.
Proof.
  intros C. induction n as [|n IH]; intros i l H d p I; [discriminate|]. cbn [law_loop] in H.
  apply bind_ok in H as (lnw & _ & H). apply bind_ok in H as (law & _ & H). apply bind_ok in H as (idat & _ & H). apply bind_ok in H as (r & _ & H). apply bind_ok in H as (p' & _ & H).
  apply bind_ok in H as (d' & E & H). apply make_law_cosine in E; [|exact C]. destruct (lnw =? 0)%Z.
  - injection H as <-. destruct I as [I|[]]. injection I as -> _. exact E.
  - apply bind_ok in H as (l' & El & H). injection H as <-. destruct I as [I|I]; [injection I as -> _; exact E|]. exact (IH _ _ El _ _ I).
Qed.
Lemma make_multi_inv (l : list (aelaw R * tab R)) m : make_multi (map (fun p => Some (fst p)) l) (map (fun p => Some (tab_eval (snd p))) l) = Ok m ->
  md_dists m = map fst l /\ md_probs m = map (fun p => tab_eval (snd p)) l.
Proof.
  unfold make_multi. intros H. apply bind_ok in H as (? & _ & H). apply bind_ok in H as (? & _ & H).
  assert (A : forall B (f : aelaw R * tab R -> B), all_some (map (fun p => Some (f p)) l) = Some (map f l)).
  { intros B f. clear. induction l as [|x l IH]; cbn; [reflexivity|]. rewrite IH. reflexivity. }
  rewrite (A _ fst), (A _ (fun p => tab_eval (snd p))) in H. injection H as <-. split; reflexivity.
Qed.
Lemma make_multi_list (l : list (aelaw R * tab R)) : (2 <= length l)%nat -> make_multi (map (fun p => Some (fst p)) l) (map (fun p => Some (tab_eval (snd p))) l) = Ok (mkMD (map fst l) (map (fun p => tab_eval (snd p)) l)).
Proof.
  intros L. unfold make_multi. rewrite !map_length, Nat.eqb_refl. replace (Nat.leb (length l) 1) with false by (symmetry; apply Nat.leb_gt; lia). cbn [guard negb bind].
  assert (A : forall B (f : aelaw R * tab R -> B), all_some (map (fun p => Some (f p)) l) = Some (map f l)).
  { intros B f. clear. induction l as [|x l IH]; cbn; [reflexivity|]. rewrite IH. reflexivity. }
  rewrite (A _ fst), (A _ (fun p => tab_eval (snd p))). reflexivity.
Qed.

Lemma load_fuel_inv n a indx q awr cm r : load_neutron_fuel n a indx q awr cm = Ok r ->
  exists angle i l d, (forall ad, angle = Some ad -> exists locb, adist_of_ace a locb = Ok ad) /\ law_loop n a angle q i = Ok l /\ combined l d /\ r = if cm then cm_law awr q d else d.
Proof.
  unfold load_neutron_fuel. intros H. apply bind_ok in H as (locb & _ & H). apply bind_ok in H as (angle & EA & H). apply bind_ok in H as (locc & _ & H). apply bind_ok in H as (l & EL & H).
  apply bind_ok in H as (d & ED & H). injection H as <-. exists angle, (DLW a + locc - 1)%Z, l, d. split; [|split; [exact EL|split; [|reflexivity]]].
  - intros ad ->. destruct (0 <=? locb)%Z; [|discriminate]. apply bind_ok in EA as (x & EA & H). injection H as ->. exists locb. exact EA.
  - destruct l as [|[d0 p0] [|[d1 p1] l]]; [discriminate| |].
    + injection ED as ->. left. exists p0. reflexivity.
    + apply bind_ok in ED as (m & EM & ED). injection ED as <-. right. split; [cbn; lia|]. rewrite make_multi_list in EM by (cbn; lia). injection EM as <-. reflexivity.
Qed.
Lemma combined_cosine l d : combined l d -> (forall d p, In (d, p) l -> cosine_ae d) -> cosine_ae d.
Proof.
  intros [[p ->]|[_ ->]] C; [exact (C d p (or_introl eq_refl))|]. apply multi_cosine. cbn [md_dists]. intros x I. apply in_map_iff in I as ([d p] & <- & I). exact (C d p I).
Qed.
Lemma load_cosine n a indx q awr d : load_neutron_fuel n a indx q awr false = Ok d -> cosine_ae d.
Proof.
  intros H. apply load_fuel_inv in H as (angle & i & l & d' & CA & EL & CO & ->). apply (combined_cosine l); [exact CO|]. apply (law_loop_cosine a angle q) with (n := n) (i := i); [|exact EL].
  intros ad E l' I. destruct (CA ad E) as [locb EA]. exact (adist_of_ace_cosine _ _ _ EA _ I).
Qed.
(** in the centre of mass: the sample is the transform of a centre-of-mass sample with a cosine *)
Lemma load_cm n a indx q awr d E ds mu e ds' : load_neutron_fuel n a indx q awr true = Ok d -> draws01 ds -> ae_sample d E ds = Ok ((mu, e), ds') ->
  exists muc ec, -1 <= muc <= 1 /\ (mu, e) = cm_to_lab E awr muc ec.
Proof.
  intros H D S. apply load_fuel_inv in H as (angle & i & l & d' & CA & EL & CO & ->).
  assert (C : cosine_ae d').
  { apply (combined_cosine l); [exact CO|]. apply (law_loop_cosine a angle q) with (n := n) (i := i); [|exact EL].
    intros ad E' l' I. destruct (CA ad E') as [locb EA]. exact (adist_of_ace_cosine _ _ _ EA _ I). }
  cbn in S. unfold cm_sample in S. apply rbind_ok in S as ([m x] & d1 & H1 & S). apply rret_ok in S as [S _]. exists m, x. split; [exact (C _ _ _ _ _ D H1)|symmetry; exact S].
Qed.

(** ** decoding a reaction *)
Lemma entry_xss a i x : entry a i x -> xss a i = Ok x.
Proof. apply holds_xss. Qed.
Lemma entry_u32 a i z : u32 z -> entry a i (IZR z) -> xss_u32 a i = Ok z.
Proof. apply holds_u32. Qed.
Lemma entry_i32 a i z : (- 2 ^ 31 <= z < 2 ^ 31)%Z -> entry a i (IZR z) -> xss_i32 a i = Ok z.
Proof. apply holds_i32. Qed.
Section Reac.
  Variables (load : ace R -> Z -> Z -> R -> R -> bool -> res (aelaw R)) (absorb : Z -> aelaw R).
  Variables (a : ace R) (indx : Z) (g : egrid R) (mt : Z) (q y : R).
  Hypothesis HE : reaction_entries a indx mt q y.
  Lemma make_reaction_eq : make_reaction load absorb a indx g =
    let! yf := read_yield a y in
    let! d := (if Reqb y 0 then Ok (absorb mt) else load a indx mt q (a_awr a) (Rltb y 0)) in
    let! xt := read_reaction_xs a indx g in
    Ok (mkReac mt q (a_awr a) (snd xt) yf d (fst xt)).
  Proof.
    destruct HE as (Um & E1 & E2 & E3). unfold make_reaction. rewrite (entry_u32 _ _ _ Um E1). cbn [bind]. rewrite (entry_xss _ _ _ E2). cbn [bind]. rewrite (entry_xss _ _ _ E3). cbn [bind].
    change (@neqb R NumR (nabs y) (nofZ 0)) with (Reqb (Rabs y) 0). change (@nltb R NumR y (nofZ 0)) with (Rltb y 0).
    destruct (read_yield a y); try reflexivity. cbn [bind]. f_equal. destruct (Reqb_spec y 0) as [->|N].
    - rewrite Rabs_R0. destruct (Reqb_spec 0 0); [reflexivity|lra].
    - replace (negb _) with true; [reflexivity|]. destruct (Reqb_spec (Rabs y) 0) as [Z|Z]; [|reflexivity]. exfalso. apply N. destruct (Rcase_abs y) as [L|L]; [rewrite Rabs_left in Z by exact L|rewrite Rabs_right in Z by exact L]; lra.
  Qed.
  Lemma make_reaction_numbers r : make_reaction load absorb a indx g = Ok r -> rx_mt r = mt /\ rx_q r = q /\ rx_awr r = a_awr a.
  Proof.
    rewrite make_reaction_eq. intros H. apply bind_ok in H as (yf & _ & H). apply bind_ok in H as (d & _ & H). apply bind_ok in H as (xt & _ & H). injection H as <-. split; [|split]; reflexivity.
  Qed.
  Lemma make_reaction_dist r : make_reaction load absorb a indx g = Ok r -> (if Reqb y 0 then Ok (absorb mt) else load a indx mt q (a_awr a) (Rltb y 0)) = Ok (rx_dist r).
  Proof.
    rewrite make_reaction_eq. intros H. apply bind_ok in H as (yf & _ & H). apply bind_ok in H as (d & E & H). apply bind_ok in H as (xt & _ & H). injection H as <-. exact E.
  Qed.
  Lemma make_reaction_yield r : make_reaction load absorb a indx g = Ok r -> read_yield a y = Ok (rx_yield r).
  Proof.
    rewrite make_reaction_eq. intros H. apply bind_ok in H as (yf & E & H). apply bind_ok in H as (d & _ & H). apply bind_ok in H as (xt & _ & H). injection H as <-. exact E.
  Qed.
End Reac.
Lemma make_reaction_xs load absorb a indx g r : make_reaction load absorb a indx g = Ok r -> read_reaction_xs a indx g = Ok (rx_xs r, rx_threshold r).
Proof.
  unfold make_reaction. intros H. do 5 (apply bind_ok in H as (? & _ & H)). apply bind_ok in H as ([x' t'] & E & H). injection H as <-. exact E.
Qed.
Lemma read_xs_block a indx i1 vals g : reaction_xs a indx i1 vals -> read_reaction_xs a indx g = let! x := make_xs_ace i1 vals g false in let! th := xs_energy x 0 in Ok (x, th).
Proof.
  intros (loca & Ul & E & U1 & Un & H). unfold read_reaction_xs. rewrite (entry_u32 _ _ _ Ul E). cbn [bind]. unfold xs_of_ace_indexed. cbn [app] in H.
  rewrite (holds_u32 a _ i1 _ ltac:(unfold u32; lia) H). cbn [bind]. apply holds_cons in H as [_ H]. rewrite (holds_u32 a _ _ _ Un H). cbn [bind]. apply holds_cons in H as [_ H].
  replace (SIG a + loca - 1 + 1 + 1)%Z with (SIG a + loca - 1 + 2)%Z in H by lia. rewrite (holds_vec _ _ _ H). cbn [bind]. reflexivity.
Qed.
Lemma reaction_xs_spec load absorb a indx i1 vals g r : (sizeZ (g_vals g) < 2 ^ 32)%Z -> reaction_xs a indx i1 vals -> make_reaction load absorb a indx g = Ok r ->
  (i1 - 1 + sizeZ vals = sizeZ (g_vals g))%Z /\ (i1 - 1 < sizeZ (g_vals g))%Z /\ Forall (fun v => 0 <= v) vals /\ rx_threshold r = getR (g_vals g) (i1 - 1) /\
  x_grid (rx_xs r) = g /\
  (forall i, (0 <= i < i1 - 1)%Z -> xs_at (rx_xs r) i = Ok 0) /\ (forall k, (0 <= k < sizeZ vals)%Z -> xs_at (rx_xs r) (i1 - 1 + k) = Ok (getR vals k)).
Proof.
  intros SG RX H. apply make_reaction_xs in H. rewrite (read_xs_block _ _ _ _ _ RX) in H. destruct RX as (loca & _ & _ & U1 & Un & _).
  apply bind_ok in H as (x & Ex & H). apply bind_ok in H as (th & Et & H). injection H as <- <-. unfold make_xs_ace in Ex.
  rewrite (wrap32_id (i1 - 1)) in Ex by lia. pose proof (sizeZ_nonneg (g_vals g)).
  destruct (wrap64 (sizeZ (g_vals g) - (i1 - 1)) =? sizeZ vals)%Z eqn:Ew; [|discriminate]. cbn [negb] in Ex. destruct (any_negative vals) eqn:En; [discriminate|]. cbn [negb andb] in Ex. injection Ex as <-.
  unfold xs_energy in Et. cbn [x_grid x_index] in Et. replace (i1 - 1 + 0)%Z with (i1 - 1)%Z in Et by lia. pose proof (atZ_inv _ _ _ Et) as [B _].
  unfold wrap64 in Ew. rewrite Z.mod_small in Ew by (unfold u32 in Un; lia). split; [lia|]. split; [lia|]. split.
  { apply Forall_forall. intros v Iv. unfold any_negative in En. destruct (Rlt_le_dec v 0) as [L|L]; [|exact L]. exfalso. rewrite <- Bool.not_true_iff_false in En. apply En. apply existsb_exists. exists v. split; [exact Iv|]. apply Rltb_true. exact L. }
  split; [rewrite atR in Et by lia; injection Et as <-; reflexivity|]. split; [reflexivity|]. unfold xs_at. cbn [x_single x_index x_vals]. split.
  - intros i Hi. replace (i <? i1 - 1)%Z with true by lia. reflexivity.
  - intros k Hk. replace (i1 - 1 + k <? i1 - 1)%Z with false by lia. replace (i1 - 1 + sizeZ vals <=? i1 - 1 + k)%Z with false by lia. replace (i1 - 1 + k - (i1 - 1))%Z with k by lia. apply atR. exact Hk.
Qed.
Lemma yield_constant a y f E : Rabs y < 100 -> read_yield a y = Ok f -> feval f E = Ok (Rabs y).
Proof.
  intros L H. unfold read_yield in H. change (@nltb R NumR (nabs y) (nofZ 100)) with (Rltb (Rabs y) 100) in H. rewrite (proj2 (Rltb_true _ _) L) in H. injection H as <-. reflexivity.
Qed.
Lemma yield_table a y k t NBT INT energy yy : (100 <= k < 2 ^ 63)%Z -> Rabs y = IZR k -> tab_layout t NBT INT energy yy -> holds a (DLW a + k - 101) (tab_block NBT INT energy yy) -> read_yield a y = Ok (FTab t).
Proof.
  intros Bk Ey (LI & LY & FN & FI & SN & SE & ET) H. unfold read_yield. change (@nltb R NumR (nabs y) (nofZ 100)) with (Rltb (Rabs y) 100). change (@nabs R NumR y) with (Rabs y). rewrite Ey.
  replace (Rltb (IZR k) 100) with false. 2: { symmetry. apply Rltb_false. apply IZR_le. lia. }
  unfold trunc_size. change (@nfloor R NumR (IZR k)) with (Some (Int_part (IZR k))). rewrite Int_part_IZR. replace ((0 <=? k) && (k <? 2 ^ 64))%Z%bool with true by lia. cbn [bind].
  rewrite (read_tab_block a _ NBT INT energy yy LI LY FN FI SN SE H).
  rewrite ET. reflexivity.
Qed.
Lemma adist_layout_read a locb angle : adist_layout a locb angle -> (if (0 <=? locb)%Z then let! d := adist_of_ace a locb in Ok (Some d) else Ok None) = Ok angle.
Proof.
  intros [l L| |l energy locs laws d P LO UE H LL FL FA M].
  - replace (0 <=? l)%Z with false by lia. reflexivity.
  - cbn [Z.leb Z.compare]. rewrite adist_isotropic. reflexivity.
  - replace (0 <=? l)%Z with true by lia. rewrite (adist_read _ _ _ _ _ P LO UE H LL FL FA), M. reflexivity.
Qed.
Lemma load_laws a indx mt q awr cm l : reaction_laws a indx q l -> exists d, combined l d /\ load_neutron a indx mt q awr cm = Ok (if cm then cm_law awr q d else d).
Proof.
  intros (locb & angle & locc & EB & UB & LA & UC & EC & LL). unfold load_neutron, load_neutron_fuel. rewrite (entry_i32 _ _ _ UB EB). cbn [bind].
  rewrite (adist_layout_read _ _ _ LA). cbn [bind]. rewrite (entry_u32 _ _ _ UC EC). cbn [bind]. destruct (law_list_loop _ _ _ _ _ LL) as [n E].
  rewrite (law_loop_enough _ _ _ _ _ _ E) by discriminate. cbn [bind]. pose proof (law_list_nonempty _ _ _ _ _ LL) as NE.
  destruct l as [|[d0 p0] [|x l]]; [elim NE; reflexivity| |].
  - exists d0. split; [left; exists p0; reflexivity|reflexivity].
  - rewrite make_multi_list by (cbn; lia). cbn [bind]. eexists. split; [right; split; [cbn; lia|reflexivity]|reflexivity].
Qed.
Lemma reaction_dist_spec absorb a indx g mt q y l r : reaction_entries a indx mt q y -> reaction_laws a indx q l -> make_reaction load_neutron absorb a indx g = Ok r ->
  exists d, combined l d /\ (0 < y -> rx_dist r = d) /\ (y < 0 -> rx_dist r = cm_law (a_awr a) q d).
Proof.
  intros HE HL H. apply (make_reaction_dist _ _ _ _ _ _ _ _ HE) in H. destruct (Reqb_spec y 0) as [Y|Y].
  - destruct (load_laws a indx mt q (a_awr a) false l HL) as (d & C & _). exists d. split; [exact C|]. split; intros; lra.
  - destruct (load_laws a indx mt q (a_awr a) (Rltb y 0) l HL) as (d & C & E). rewrite E in H. injection H as H. exists d. split; [exact C|]. split; intros S; rewrite <- H.
    + replace (Rltb y 0) with false; [reflexivity|]. symmetry. apply Rltb_false. lra.
    + replace (Rltb y 0) with true; [reflexivity|]. symmetry. apply Rltb_true. lra.
Qed.
Lemma reaction_accepted a indx g mt q y l i1 vals : reaction_entries a indx mt q y -> Rabs y < 100 -> (y <> 0 -> reaction_laws a indx q l) -> (sizeZ (g_vals g) < 2 ^ 32)%Z -> reaction_xs a indx i1 vals ->
  (i1 - 1 + sizeZ vals = sizeZ (g_vals g))%Z -> vals <> [] -> Forall (fun v => 0 <= v) vals -> exists r, reaction_of_ace a indx g = Ok r.
Proof.
  intros HE HY HL SG RX SV NV FV. unfold reaction_of_ace. rewrite (make_reaction_eq _ _ _ _ _ _ _ _ HE). unfold read_yield. change (@nltb R NumR (nabs y) (nofZ 100)) with (Rltb (Rabs y) 100). rewrite (proj2 (Rltb_true _ _) HY). cbn [bind].
  rewrite (read_xs_block _ _ _ _ _ RX). destruct RX as (loca & _ & _ & U1 & Un & _).
  assert (0 < sizeZ vals)%Z by (destruct vals; [elim NV; reflexivity|rewrite sizeZ_cons; pose proof (sizeZ_nonneg vals); lia]).
  assert (X : exists x, make_xs_ace i1 vals g false = Ok x /\ exists th, xs_energy x 0 = Ok th).
  { unfold make_xs_ace. rewrite (wrap32_id (i1 - 1)) by lia. unfold wrap64. rewrite Z.mod_small by lia. replace (sizeZ (g_vals g) - (i1 - 1) =? sizeZ vals)%Z with true by lia. cbn [negb].
    replace (any_negative vals) with false. 2: { symmetry. apply Bool.not_true_iff_false. intros E. unfold any_negative in E. apply existsb_exists in E as (v & Iv & Ev). apply Rltb_true in Ev. rewrite Forall_forall in FV. specialize (FV v Iv). cbn in Ev. lra. }
    cbn [negb andb]. eexists. split; [reflexivity|]. unfold xs_energy. cbn [x_grid x_index]. eexists. apply atR. lia. }
  destruct X as (x & Ex & th & Et). rewrite Ex. cbn [bind]. rewrite Et. cbn [bind].
  destruct (Reqb_spec y 0) as [Y|Y]; [eexists; reflexivity|]. destruct (load_laws a indx mt q (a_awr a) (Rltb y 0) l (HL Y)) as (d & _ & E). rewrite E. eexists; reflexivity.
Qed.
(** ** unsupported laws *)
Lemma loop_first_throws a angle q n i next law idat NBT INT energy p t : u32 next -> u32 idat -> (- 2 ^ 31 <= law < 2 ^ 31)%Z -> regions_ok NBT INT -> u32 (sizeZ energy) -> length p = length energy ->
  holds a i ([IZR next; IZR law; IZR idat] ++ tab_block NBT INT energy p) -> tabulated NBT INT energy p = Ok t -> make_law a angle q law (DLW a + idat - 1) = Throw -> law_loop (S n) a angle q i = Throw.
Proof.
  intros Un Ui Ul RO UE LP H Et M. cbn [law_loop]. cbn [app] in H. rewrite (holds_u32 a _ next _ Un H). cbn [bind]. apply holds_cons in H as [_ H].
  rewrite (holds_i32 _ _ _ _ Ul H). cbn [bind]. apply holds_cons in H as [_ H]. replace (i + 1 + 1)%Z with (i + 2)%Z in H by lia.
  rewrite (holds_u32 _ _ _ _ Ui H). cbn [bind]. apply holds_cons in H as [_ H]. replace (i + 2 + 1)%Z with (i + 3)%Z in H by lia.
  rewrite <- (app_nil_r (tab_block _ _ _ _)) in H. destruct (pairs_read _ _ _ _ _ _ _ RO UE LP H) as (k & -> & _). cbn [bind snd]. rewrite Et. cbn [bind]. rewrite M. reflexivity.
Qed.
