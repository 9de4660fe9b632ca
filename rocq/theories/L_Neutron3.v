(** * Probability tables of an object, multiplicities from their blocks, the fission cross section, examples *)
From Verif Require Import Base NumR L_Search L_SearchR M_Interp M_Tab1D M_Func M_Grid M_Packet M_PC M_Spectra M_Ace M_Neutron S_Grid S_Neutron L_PC L_Grid L_Xs L_Neutron L_Ace L_Neutron2 L_Urr.
From Coq Require Import ZifyBool ZifyNat.
Local Open Scope R_scope.

(** ** multiplicities *)
Section Nus.
  Variable a : ace R.
  Lemma read_nu_block i f b : nu_block f b -> holds a i b -> read_nu a i = Ok f.
  Proof.
    intros N H. destruct N as [c U|NBT INT en y t L1 L2 F1 F2 S1 S2 E]; [apply read_poly; assumption|].
    eapply read_nu_tab; try eassumption. change (2 :: tab_block NBT INT en y) with ([2] ++ tab_block NBT INT en y) in H. apply holds_app in H as [_ H]. cbn in H.
    rewrite (read_tab_block a (i + 1) NBT INT en y) by assumption. exact E.
  Qed.
  Lemma nu_block_first f b i : nu_block f b -> holds a i b -> exists x, xss a i = Ok x /\ 0 < x.
  Proof.
    intros N H. destruct N as [c U|NBT INT en y t L1 L2 F1 F2 S1 S2 E].
    - unfold poly_block in H. cbn [app] in H. apply holds_cons in H as [H _]. exists 1. split; [exact H|lra].
    - apply holds_cons in H as [H _]. exists 2. split; [exact H|lra].
  Qed.
  (** one multiplicity only *)
  Lemma nus_single f b : a_fissile a = true -> (0 < jxs a 1)%Z -> (jxs a 23 <= 0)%Z -> nu_block f b -> holds a (NU a) b ->
    make_nus a = Ok (mkNus f f (FConst 0)).
  Proof.
    intros F J1 J2 N H. unfold make_nus. rewrite F. unfold read_nu_blocks. replace (0 <? jxs a 1)%Z with true by lia.
    destruct (nu_block_first f b _ N H) as (x & Ex & X). rewrite Ex. cbn [bind]. change (@nltb R NumR) with Rltb. change (@nofZ R NumR 0) with 0.
    replace (Rltb 0 x) with true by (symmetry; apply Rltb_true; exact X). replace (0 <? jxs a 23)%Z with false by lia. unfold DNU. replace (0 <? jxs a 23 - 1)%Z with false by lia.
    rewrite (read_nu_block _ _ _ N H). reflexivity.
  Qed.
  (** prompt and delayed *)
  Lemma nus_prompt_delayed p bp d bd : a_fissile a = true -> (0 < jxs a 1)%Z -> (1 < jxs a 23)%Z -> nu_block p bp -> holds a (NU a) bp -> nu_block d bd -> holds a (DNU a) bd ->
    make_nus a = Ok (mkNus (FSum p d) p d).
  Proof.
    intros F J1 J2 N H ND HD. unfold make_nus. rewrite F. unfold read_nu_blocks. replace (0 <? jxs a 1)%Z with true by lia.
    destruct (nu_block_first p bp _ N H) as (x & Ex & X). rewrite Ex. cbn [bind]. change (@nltb R NumR) with Rltb. change (@nofZ R NumR 0) with 0.
    replace (Rltb 0 x) with true by (symmetry; apply Rltb_true; exact X). replace (0 <? jxs a 23)%Z with true by lia. replace (0 <? DNU a)%Z with true by (unfold DNU; lia).
    rewrite (read_nu_block _ _ _ N H), (read_nu_block _ _ _ ND HD). reflexivity.
  Qed.
  (** the NU block gives prompt and total: minus the length of the prompt block, the prompt block, the total block *)
  Lemma nus_both p bp t bt : nu_block p bp -> nu_block t bt -> (0 < jxs a 1 < 2 ^ 30)%Z -> (sizeZ bp < 2 ^ 30)%Z -> holds a (NU a) ([- IZR (sizeZ bp)] ++ bp ++ bt) ->
    forall d, (if (0 <? DNU a)%Z then let! d := read_nu a (DNU a) in Ok (Some d) else Ok None) = Ok d ->
    read_nu_blocks a = Ok (Some t, Some p, d).
  Proof.
    intros NP NT J1 J2 H d Hd. unfold read_nu_blocks. replace (0 <? jxs a 1)%Z with true by lia. cbn [app] in H. apply holds_cons in H as [H0 H]. apply holds_app in H as [Hp Ht].
    rewrite H0. cbn [bind]. change (@nltb R NumR) with Rltb. change (@nofZ R NumR 0) with 0.
    pose proof (sizeZ_nonneg bp) as SN. assert (0 <= IZR (sizeZ bp)) by (apply IZR_le; exact SN).
    replace (Rltb 0 (- IZR (sizeZ bp))) with false by (symmetry; apply Rltb_false; lra).
    assert (XI : xss_i32 a (NU a) = Ok (- sizeZ bp)%Z). { unfold xss_i32. rewrite H0. cbn [bind]. rewrite <- opp_IZR. apply trunc_i32_IZR. lia. }
    rewrite XI. cbn [bind]. rewrite Z.abs_opp, Z.abs_eq by exact SN. unfold in_i32. unfold NU in *.
    replace (((- 2 ^ 31 <=? sizeZ bp) && (sizeZ bp <? 2 ^ 31)) && ((- 2 ^ 31 <=? jxs a 1 - 1 + sizeZ bp + 1) && (jxs a 1 - 1 + sizeZ bp + 1 <? 2 ^ 31)))%Z%bool with true by lia.
    rewrite !wrap32_id by lia. replace (jxs a 1 - 1 + sizeZ bp + 1)%Z with (jxs a 1 - 1 + 1 + sizeZ bp)%Z by lia.
    rewrite (read_nu_block _ _ _ NT Ht), (read_nu_block _ _ _ NP Hp). cbn [bind]. rewrite Hd. reflexivity.
  Qed.
  Lemma nus_total_prompt p bp t bt : a_fissile a = true -> (0 < jxs a 1 < 2 ^ 30)%Z -> (jxs a 23 <= 0)%Z -> nu_block p bp -> nu_block t bt -> (sizeZ bp < 2 ^ 30)%Z ->
    holds a (NU a) ([- IZR (sizeZ bp)] ++ bp ++ bt) -> make_nus a = Ok (mkNus t p (FDiff t p)).
  Proof.
    intros F J1 J2 NP NT S H. unfold make_nus. rewrite F. rewrite (nus_both p bp t bt NP NT J1 S H None); [reflexivity|].
    unfold DNU. replace (0 <? jxs a 23 - 1)%Z with false by lia. reflexivity.
  Qed.
  Lemma nus_all p bp t bt d bd : a_fissile a = true -> (0 < jxs a 1 < 2 ^ 30)%Z -> (1 < jxs a 23)%Z -> nu_block p bp -> nu_block t bt -> (sizeZ bp < 2 ^ 30)%Z ->
    holds a (NU a) ([- IZR (sizeZ bp)] ++ bp ++ bt) -> nu_block d bd -> holds a (DNU a) bd -> make_nus a = Ok (mkNus t p d).
  Proof.
    intros F J1 J2 NP NT S H ND HD. unfold make_nus. rewrite F. rewrite (nus_both p bp t bt NP NT J1 S H (Some d)); [reflexivity|].
    replace (0 <? DNU a)%Z with true by (unfold DNU; lia). rewrite (read_nu_block _ _ _ ND HD). reflexivity.
  Qed.
  Lemma nus_nonfissile : a_fissile a = false -> make_nus a = Ok (mkNus (FConst 0) (FConst 0) (FConst 0)).
  Proof. intros F. unfold make_nus. rewrite F. reflexivity. Qed.
End Nus.

(** ** the probability tables held by an object *)
Section Neutron.
  Variable load : ace R -> Z -> Z -> R -> R -> bool -> res (aelaw R).
  Variable absorb : Z -> aelaw R.
  Variable load_delayed : ace R -> Z -> res (elaw R).
  Variable load_elastic : ace R -> res (adist R).
  Notation make_neutron := (make_neutron load absorb load_delayed load_elastic).

  Lemma neutron_urr NB a n : fits a -> bins_ok NB -> make_neutron NB a = Ok n -> neutron_good n /\ urr_ok (n_grid n) (n_urr n).
  Proof.
    intros F B H. pose proof (neutron_is_good _ _ _ _ _ _ _ F B H) as NG. split; [exact NG|].
    destruct (neutron_parts _ _ _ _ _ _ _ H) as (g & [[[[tot dis] ela] hea] pho] & mts & idx & rs & f & Eg & Ex & El & Ef & En).
    destruct (finish_fields _ _ _ _ _ _ _ _ _ _ _ En) as (F1 & F2 & F3 & F4 & F5 & F6 & F7). injection F6 as F61 F62 F63 F64 F65.
    destruct NG as [G _ _ _ [NE _] [NH _] NF NR NS]. rewrite F3, F4, F5, ?F63, ?F64 in *.
    unfold finish in En. apply bind_ok in En as (fx & Efx & En). rewrite F7 in Efx. injection Efx as <-. apply bind_ok in En as (h & Eh & En).
    apply bind_ok in En as (cx & Ecx & En). apply bind_ok in En as (u & Eu & En). assert (U : n_urr n = u) by (injection En as <-; reflexivity). rewrite U.
    eapply make_urr_ok; [| | | | |exact Eu]; [left; exact NE| |exact NF|exact NH|].
    - destruct h; [|right; apply make_zero; exact Ecx]. apply bind_ok in Ecx as (r & Er & Ecx). injection Ecx as <-. left.
      unfold get_reaction in Er. rewrite Eh in Er. cbn [bind negb] in Er. change (is_fission_mt 102) with false in Er. cbn match in Er. apply bind_ok in Er as (k & _ & Er).
      rewrite Forall_forall in NR. apply NR. apply atZ_In in Er. exact Er.
    - eapply Forall_impl; [|exact NR]. intros r [R1 _]. left. exact R1.
  Qed.
  Lemma neutron_urr_eval NB a n E xi : fits a -> bins_ok NB -> make_neutron NB a = Ok n -> strictly_increasing (g_vals (n_grid n)) -> getR (g_vals (n_grid n)) 0 <= E ->
    let u := n_urr n in (3 <= sizeZ (u_energy u))%Z -> getR (u_energy u) 0 <= E <= getR (u_energy u) (sizeZ (u_energy u) - 1) -> xi <= 1 ->
    exists i p other, get_lower_index (n_grid n) E = Ok i /\ urr_evaluate' u E xi = Ok (Some p) /\ urr_evaluate u E i xi = Ok (Some p) /\
      0 <= elastic p /\ 0 <= inelastic p /\ 0 <= capture p /\ 0 <= fission p /\ 0 <= heating p /\ 0 <= other /\
      absorption p = capture p + fission p + other /\ total p = elastic p + inelastic p + absorption p.
  Proof.
    intros F B H SI HE u S R X. destruct (neutron_urr NB a n F B H) as [NG UO]. destruct NG as [G (NB' & [B1 B2] & K) _ _ _ _ _ _ _].
    destruct (get_lower_index_spec (g_vals (n_grid n)) NB' (n_grid n) G B1 B2 K E) as (i & Ei & Br).
    destruct (urr_eval_inside (n_grid n) u E i xi G SI UO Br HE S R X) as (p & o & Ep & P1 & P2 & P3 & P4 & P5 & P6 & _ & _ & P7 & P8 & _).
    exists i, p, o. split; [exact Ei|]. split; [|repeat (split; [assumption|]); assumption].
    unfold urr_evaluate', urr_valid. replace (2 <? sizeZ (u_energy u))%Z with true by lia. cbn [negb].
    assert (XG : x_grid (u_elastic u) = n_grid n). { destruct (uo_elastic _ _ UO) as [[[_ Q] _]|Q]; [exact Q|fold u in Q; rewrite Q; reflexivity]. }
    rewrite XG, Ei. exact Ep.
  Qed.

  (** ** the fission cross section *)
  Lemma lowest_le o k : (lowest (T := R) o k <= k)%Z.
  Proof. clear. destruct o as [r|]; cbn; [destruct (_ <? _)%Z eqn:E|]; lia. Qed.
  Lemma lowest_r r k : (lowest (T := R) (Some r) k <= x_index (rx_xs r))%Z.
  Proof. clear. cbn. destruct (_ <? _)%Z eqn:E; lia. Qed.
  Lemma lowest_mono (o : option (reaction R)) k k' : (k <= k')%Z -> (lowest o k <= lowest o k')%Z.
  Proof. clear. intros. destruct o as [r|]; cbn; [|assumption]. destruct (_ <? k)%Z eqn:E, (_ <? k')%Z eqn:E'; lia. Qed.
  Definition chances (f : fis R) : list (reaction R) :=
    concat (map (fun o => match o with Some r => [r] | None => [] end) [f19 f; f20 f; f21 f; f38 f]).
  (** the value of a reaction's cross section at grid point i: zero below its first point *)
  Definition point_value (r : reaction R) (i : Z) : R := if (i <? x_index (rx_xs r))%Z then 0 else getR (x_vals (rx_xs r)) (i - x_index (rx_xs r)).
  Lemma xs_at_good g x i : good g x -> (0 <= i < sizeZ (g_vals g))%Z -> @xs_at R NumR x i = Ok (if (i <? x_index x)%Z then 0 else getR (x_vals x) (i - x_index x)).
  Proof.
    clear. intros [[[G S I Z] Xg] _] Hi. rewrite Xg in *. unfold xs_at. rewrite S. destruct (i <? x_index x)%Z eqn:L; [reflexivity|].
    replace (x_index x + sizeZ (x_vals x) <=? i)%Z with false by lia. apply atR. lia.
  Qed.
  Lemma sum_at g f i : (forall r, In r (chances f) -> good g (rx_xs r)) -> (0 <= i < sizeZ (g_vals g))%Z ->
    fission_sum_at f i = Ok (fold_left (fun s r => s + point_value r i) (chances f) 0).
  Proof.
    clear. intros C Hi. unfold fission_sum_at, chances in *. unfold add_at.
    destruct (f19 f) as [r1|], (f20 f) as [r2|], (f21 f) as [r3|], (f38 f) as [r4|]; cbn [map concat app fold_left] in *;
      rewrite ?(xs_at_good g) by (try exact Hi; apply C; cbn; auto); cbn [bind];
      rewrite ?(xs_at_good g) by (try exact Hi; apply C; cbn; auto); cbn [bind];
      rewrite ?(xs_at_good g) by (try exact Hi; apply C; cbn; auto); cbn [bind];
      rewrite ?(xs_at_good g) by (try exact Hi; apply C; cbn; auto); reflexivity.
  Qed.

  Definition point (x : xsec R) (i : Z) : R := if (i <? x_index x)%Z then 0 else getR (x_vals x) (i - x_index x).
  Definition sum_of (g : reaction R -> R) (l : list (reaction R)) : R := fold_right (fun r s => g r + s) 0 l.
  Lemma fold_sum (h : reaction R -> R) l : forall s, fold_left (fun s r => s + h r) l s = s + sum_of h l.
  Proof. clear. induction l as [|r l IH]; intros s; cbn; [lra|]. rewrite IH. unfold sum_of. lra. Qed.
  Lemma chances_above f N r i : In r (chances f) -> (i < lowest (f38 f) (lowest (f21 f) (lowest (f20 f) (lowest (f19 f) N))))%Z -> (i < x_index (rx_xs r))%Z.
  Proof.
    clear. intros I H. unfold chances in I. cbn [map concat] in I. rewrite !in_app_iff in I.
    pose proof (lowest_le (f38 f) (lowest (f21 f) (lowest (f20 f) (lowest (f19 f) N)))) as L1. pose proof (lowest_le (f21 f) (lowest (f20 f) (lowest (f19 f) N))) as L2.
    pose proof (lowest_le (f20 f) (lowest (f19 f) N)) as L3.
    destruct I as [I|[I|[I|[I|[]]]]].
    - destruct (f19 f) as [q|] eqn:E; [destruct I as [<-|[]]|destruct I]. pose proof (lowest_r q N). lia.
    - destruct (f20 f) as [q|] eqn:E; [destruct I as [<-|[]]|destruct I]. pose proof (lowest_r q (lowest (f19 f) N)). lia.
    - destruct (f21 f) as [q|] eqn:E; [destruct I as [<-|[]]|destruct I]. pose proof (lowest_r q (lowest (f20 f) (lowest (f19 f) N))). lia.
    - destruct (f38 f) as [q|] eqn:E; [destruct I as [<-|[]]|destruct I]. pose proof (lowest_r q (lowest (f21 f) (lowest (f20 f) (lowest (f19 f) N)))). lia.
  Qed.
  Lemma sum_zero (h : reaction R -> R) l : (forall r, In r l -> h r = 0) -> sum_of h l = 0.
  Proof. clear. induction l as [|r l IH]; intros H; cbn; [reflexivity|]. rewrite (H r) by (left; reflexivity). unfold sum_of in IH. rewrite IH; [lra|]. intros q Q. apply H. right. exact Q. Qed.
  Lemma fission_points f g x : grid_ok (g_vals g) -> f18 f = None -> (forall r, In r (chances f) -> good g (rx_xs r)) -> compute_fission_xs true f g = Ok x ->
    good g x /\ forall i, (0 <= i < sizeZ (g_vals g))%Z -> point x i = sum_of (fun r => point (rx_xs r) i) (chances f).
  Proof.
    clear. intros G F C H. assert (GX := fission_xs_good true f g x G ltac:(intros r E; congruence) H). unfold compute_fission_xs in H. cbn [negb] in H. rewrite F in H.
    apply bind_ok in H as (v & Ev & H). set (N := sizeZ (g_vals g)) in *. set (lo := lowest (f38 f) _) in *.
    assert (Hlo : (0 <= lo <= N)%Z).
    { split.
      - unfold lo. assert (forall o k, (forall r, o = Some r -> In r (chances f)) -> (0 <= k)%Z -> (0 <= lowest (T := R) o k)%Z) as Q.
        { intros [r|] k HC K; cbn; [|exact K]. destruct (C r (HC r eq_refl)) as [[[_ _ I _] _] _]. destruct (_ <? _)%Z; lia. }
        unfold chances in Q. apply Q; [|apply Q; [|apply Q; [|apply Q; [|unfold N; apply sizeZ_nonneg]]]]; intros r Er; rewrite Er; cbn [map concat]; rewrite !in_app_iff; cbn; tauto.
      - unfold lo. pose proof (lowest_le (f38 f) (lowest (f21 f) (lowest (f20 f) (lowest (f19 f) N)))). pose proof (lowest_le (f21 f) (lowest (f20 f) (lowest (f19 f) N))).
        pose proof (lowest_le (f20 f) (lowest (f19 f) N)). pose proof (lowest_le (f19 f) N). lia. }
    pose proof G as (Gs & _). fold N in Gs.
    destruct (make_xs_spec v g lo G ltac:(lia)) as [[(C1 & C2 & C3) (x' & Ex & X1 & X2 & X3 & X4)]|[_ Ex]]; rewrite H in Ex; [|discriminate]. injection Ex as <-.
    fold N in C1, C3. split.
    { destruct GX as [GX|GX]; [exact GX|]. exfalso. destruct X1 as [_ S _ _]. rewrite GX in S. discriminate. }
    intros i Hi. unfold point at 1. rewrite X3, X4. destruct (i <? lo)%Z eqn:L.
    - symmetry. apply sum_zero. intros r I. unfold point. replace (i <? x_index (rx_xs r))%Z with true; [reflexivity|]. pose proof (chances_above f N r i I ltac:(fold lo; lia)). lia.
    - destruct (mapR_ok _ _ _ Ev) as [_ K]. assert (Z : nth_error (zseq lo (Z.to_nat (N - lo))) (Z.to_nat (i - lo)) = Some i).
      { unfold zseq. rewrite nth_error_map. assert (Q : nth_error (seq 0 (Z.to_nat (N - lo))) (Z.to_nat (i - lo)) = Some (Z.to_nat (i - lo))).
        { rewrite (nth_error_nth' _ 0%nat) by (rewrite seq_length; lia). rewrite seq_nth by lia. reflexivity. }
        rewrite Q. cbn. f_equal. lia. }
      destruct (K _ _ Z) as (b & B1 & B2). rewrite (sum_at g f i C Hi) in B2. injection B2 as <-. unfold getR. rewrite (nth_error_nth _ _ _ B1).
      rewrite fold_sum. rewrite Rplus_0_l. reflexivity.
  Qed.
  (** evaluation with a known index *)
  Lemma eval_point g x E i : good g x -> (0 <= i < sizeZ (g_vals g))%Z -> (x_index x = (i + 1)%Z -> point x (i + 1) = 0) ->
    @xs_eval_i R NumR x E i = Ok (if (sizeZ (g_vals g) - 1 <=? i)%Z then point x i else @lin R NumR E (getR (g_vals g) i) (getR (g_vals g) (i + 1)) (point x i) (point x (i + 1))).
  Proof.
    clear. intros [[[G S I Z] Xg] _] Hi H1. rewrite Xg in *. destruct G as (Gs & _). unfold xs_eval_i. rewrite S, Xg. rewrite wrap64_id by lia.
    replace (x_index x + sizeZ (x_vals x) - 1)%Z with (sizeZ (g_vals g) - 1)%Z by lia.
    destruct (i <? x_index x)%Z eqn:L.
    - replace (sizeZ (g_vals g) - 1 <=? i)%Z with false by lia.
      assert (P0 : point x i = 0) by (unfold point; rewrite L; reflexivity).
      assert (P1 : point x (i + 1) = 0). { destruct (Z.eq_dec (x_index x) (i + 1)) as [Q|Q]; [auto|]. unfold point. replace (i + 1 <? x_index x)%Z with true by lia. reflexivity. }
      rewrite P0, P1. unfold lin. rnum. f_equal. ring.
    - destruct (sizeZ (g_vals g) - 1 <=? i)%Z eqn:M.
      + unfold point. rewrite L. unfold backR. rewrite atR by lia. do 2 f_equal. lia.
      + replace (x_index x + (i - x_index x))%Z with i by lia. rewrite !atR by lia. cbn [bind]. unfold point. rewrite L. replace (i + 1 <? x_index x)%Z with false by lia.
        replace (i - x_index x + 1)%Z with (i + 1 - x_index x)%Z by lia. reflexivity.
  Qed.
  Lemma sum_lin E El Eh (h1 h2 : reaction R -> R) l : @lin R NumR E El Eh (sum_of h1 l) (sum_of h2 l) = sum_of (fun r => @lin R NumR E El Eh (h1 r) (h2 r)) l.
  Proof. clear. unfold sum_of. induction l as [|r l IH]; cbn [fold_right]; [unfold lin; rnum; ring|]. rewrite <- IH. unfold lin. rnum. ring. Qed.
  Lemma sum_ext (h1 h2 : reaction R -> R) l : (forall r, In r l -> h1 r = h2 r) -> sum_of h1 l = sum_of h2 l.
  Proof. clear. induction l as [|r l IH]; intros H; cbn; [reflexivity|]. rewrite (H r) by (left; reflexivity). unfold sum_of in IH. rewrite IH; [reflexivity|]. intros q Q. apply H. right. exact Q. Qed.
  Lemma fission_eval f g x E i : grid_ok (g_vals g) -> f18 f = None -> (forall r, In r (chances f) -> good g (rx_xs r)) -> compute_fission_xs true f g = Ok x ->
    (0 <= i < sizeZ (g_vals g))%Z -> (forall r, In r (chances f) -> x_index (rx_xs r) = (i + 1)%Z -> point (rx_xs r) (i + 1) = 0) ->
    exists val, (forall r, In r (chances f) -> @xs_eval_i R NumR (rx_xs r) E i = Ok (val r)) /\ @xs_eval_i R NumR x E i = Ok (sum_of val (chances f)).
  Proof.
    clear. intros G F C H Hi HZ. destruct (fission_points f g x G F C H) as [GX P].
    exists (fun r => if (sizeZ (g_vals g) - 1 <=? i)%Z then point (rx_xs r) i else @lin R NumR E (getR (g_vals g) i) (getR (g_vals g) (i + 1)) (point (rx_xs r) i) (point (rx_xs r) (i + 1))).
    split; [intros r I; apply eval_point; auto|]. rewrite (eval_point g x E i GX Hi).
    - f_equal. destruct (sizeZ (g_vals g) - 1 <=? i)%Z eqn:M; [apply P; exact Hi|]. rewrite !P by lia. apply sum_lin.
    - intros Q. assert (i + 1 < sizeZ (g_vals g))%Z by (destruct GX as [[[_ _ I _] Xg] _]; rewrite Xg in I; lia).
      rewrite P by lia. apply sum_zero. intros r I. destruct (Z.eq_dec (x_index (rx_xs r)) (i + 1)) as [D|D]; [auto|].
      unfold point. destruct (i + 1 <? x_index (rx_xs r))%Z eqn:L; [reflexivity|]. exfalso.
      (* an index at or below i would put the sum's first point at or below i *)
      assert (XI : x_index x = lowest (f38 f) (lowest (f21 f) (lowest (f20 f) (lowest (f19 f) (sizeZ (g_vals g)))))).
      { unfold compute_fission_xs in H. cbn [negb] in H. rewrite F in H. apply bind_ok in H as (v & _ & H). set (lo := lowest (f38 f) _) in *. unfold make_xs in H.
        destruct (_ <=? _)%Z eqn:A1; [discriminate|]. destruct (any_negative v); [discriminate|]. destruct (negb _); [discriminate|]. injection H as <-. cbn in Q. cbn.
        pose proof (lowest_le (f38 f) (lowest (f21 f) (lowest (f20 f) (lowest (f19 f) (sizeZ (g_vals g)))))). pose proof (lowest_le (f21 f) (lowest (f20 f) (lowest (f19 f) (sizeZ (g_vals g))))).
        pose proof (lowest_le (f20 f) (lowest (f19 f) (sizeZ (g_vals g)))). pose proof (lowest_le (f19 f) (sizeZ (g_vals g))). fold lo in H.
        apply wrap32_id. split; [|destruct G as (Gs & _); lia].
        assert (forall o k, (forall r, o = Some r -> In r (chances f)) -> (0 <= k)%Z -> (0 <= lowest (T := R) o k)%Z) as Q2.
        { intros [q|] k HC K; cbn; [|exact K]. destruct (C q (HC q eq_refl)) as [[[_ _ I2 _] _] _]. clear - I2 K. destruct (_ <? _)%Z; lia. }
        unfold lo. unfold chances in Q2. apply Q2; [|apply Q2; [|apply Q2; [|apply Q2; [|apply sizeZ_nonneg]]]]; intros q Eq; rewrite Eq; cbn [map concat]; rewrite !in_app_iff; cbn; tauto. }
      pose proof (chances_above f (sizeZ (g_vals g)) r i I ltac:(lia)). lia.
  Qed.
End Neutron.
