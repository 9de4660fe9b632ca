(** * Properties C36-C39, C64, C65: nuclide objects, probability tables, multiplicities, ACE blocks.
    Every theorem quantifies over the functions [load], [absorb], [load_delayed], [load_elastic] that stand for the reading of the
    secondary distributions (see M_Neutron): the claims do not depend on what those return. *)
From Verif Require Import NumF Base NumR L_Search L_SearchR M_Interp M_Tab1D M_Func M_Grid M_Packet M_PC M_Spectra M_Ace M_Neutron S_Grid S_Neutron L_PC L_Grid L_Xs L_Neutron L_Ace L_Neutron2 L_Urr L_Neutron3 L_Neutron4 L_Neutron5 L_NeutronEx.
From Coq Require Import Reals List Lra Lia Sorted. Import ListNotations.
From Coq Require Import ZifyBool ZifyNat.
Local Open Scope R_scope.

(** ** C36: evaluated cross sections balance *)
(** full claim: at every energy. Proved from the first grid energy on (grid without repeated energies), for every object a program can
    hold ([held]: read from a file, or derived from another held object and a file) *)
Theorem C36_balance_partial : forall load absorb load_delayed load_elastic n E, held load absorb load_delayed load_elastic n -> strictly_increasing (g_vals (n_grid n)) -> getR (g_vals (n_grid n)) 0 <= E ->
  exists p d, neutron_xs n E = Ok p /\ xs_eval (n_total n) E = Ok (total p) /\ xs_eval (n_elastic_xs n) E = Ok (elastic p) /\ xs_eval (n_disappearance n) E = Ok d /\ xs_eval (n_heating n) E = Ok (heating p) /\
    absorption p = d + fission p /\ inelastic p = Rmax 0 (total p - elastic p - absorption p) /\
    0 <= total p /\ 0 <= elastic p /\ 0 <= inelastic p /\ 0 <= absorption p /\ 0 <= fission p /\ 0 <= capture p /\
    (elastic p + absorption p <= total p -> total p = elastic p + inelastic p + absorption p).
Proof.
  intros load absorb ld le n E O SI HE. destruct (neutron_eval _ _ _ _ n E (held_obj _ _ _ _ n O) (held_good _ _ _ _ n O) SI HE) as (p & d & H1 & H2 & H3 & H4 & H5 & H6 & H7 & H8 & H9 & H10 & P1 & P2 & P3 & P4 & P5 & P6 & P7).
  exists p, d. repeat (split; [assumption|]). intros B. rewrite H10, Rmax_right by lra. lra.
Qed.
Print Assumptions C36_balance_partial.
(** the fission and capture entries are the values of the fission cross section and of MT 102 (away from the threshold point of a
    cross section that does not start at the first grid energy) *)
Theorem C36_fission_capture_partial : forall load absorb load_delayed load_elastic n E, held load absorb load_delayed load_elastic n -> strictly_increasing (g_vals (n_grid n)) -> getR (g_vals (n_grid n)) 0 <= E ->
  exists p, neutron_xs n E = Ok p /\
    (E <> getR (g_vals (n_grid n)) (x_index (n_fission_xs n)) \/ x_index (n_fission_xs n) = 0%Z -> xs_eval (n_fission_xs n) E = Ok (fission p)) /\
    (~ In 102%Z (n_mts n) -> capture p = 0) /\
    (forall r, neutron_reaction n 102 = Ok r -> E <> getR (g_vals (n_grid n)) (x_index (rx_xs r)) \/ x_index (rx_xs r) = 0%Z -> xs_eval (rx_xs r) E = Ok (capture p)).
Proof.
  intros load absorb ld le n E O SI HE. destruct (neutron_eval _ _ _ _ n E (held_obj _ _ _ _ n O) (held_good _ _ _ _ n O) SI HE) as (p & d & H1 & H2 & H3 & H4 & H5 & H6 & H7 & H8 & _).
  exists p. repeat (split; [assumption|]). assumption.
Qed.
Print Assumptions C36_fission_capture_partial.
(** below the first grid energy the library extrapolates: a total that is negative *)
Theorem C36_below_grid_refuted : exists a : ace R, fits a /\ forall load absorb load_delayed el, exists n p, make_neutron load absorb load_delayed (fun _ => Ok el) 1 a = Ok n /\ neutron_xs n (/4) = Ok p /\ total p < 0.
Proof.
  exists (ex 102). split; [apply ex_fits|]. intros load absorb ld el. destruct (ex_neutron load absorb ld el) as (n & r & Hn & _). destruct (ex_negative_total _ _ _ _ n Hn) as (p & Hp). exists n, p. auto.
Qed.
Print Assumptions C36_below_grid_refuted.
Example C36_nonvacuous : forall load absorb load_delayed el, exists n, held load absorb load_delayed (fun _ => Ok el) n /\ strictly_increasing (g_vals (n_grid n)) /\ getR (g_vals (n_grid n)) 0 <= 3/2.
Proof.
  intros load absorb ld el. destruct (ex_neutron load absorb ld el) as (n & r & Hn & Hg & _). exists n. rewrite Hg. split; [eapply held_file; [apply ex_fits| |exact Hn]; split; lia|]. split; [apply exg_strict|]. cbn. unfold getR. cbn. lra.
Qed.

(** ** C37: reaction lookup *)
(** full claim: for every object and every MT >= 0. Proved for objects read from a file (any arithmetic) *)
Theorem C37_lookup_partial : forall T (N : Num T) load absorb load_delayed load_elastic NB (a : ace T) n mt, make_neutron load absorb load_delayed load_elastic NB a = Ok n -> (0 <= mt)%Z ->
  (In mt (n_mts n) -> neutron_has n mt = Ok true /\ exists r, neutron_reaction n mt = Ok r /\ rx_mt r = mt) /\
  (~ In mt (n_mts n) -> neutron_has n mt = Ok false /\ neutron_reaction n mt = Throw).
Proof. intros T N load absorb ld le NB a n mt H Hm. exact (neutron_lookup load absorb ld le NB a n H mt Hm). Qed.
Print Assumptions C37_lookup_partial.
(** the list is the file's MTR block (fission MTs only for a fissile nuclide) *)
Theorem C37_list : forall T (N : Num T) load absorb load_delayed load_elastic NB (a : ace T) n mt, make_neutron load absorb load_delayed load_elastic NB a = Ok n ->
  (In mt (n_mts n) <-> exists k, (0 <= k < wrap32 (nxs a 3))%Z /\ xss_u32 a (MTR a + k) = Ok mt /\ (In mt [18; 19; 20; 21; 38]%Z -> a_fissile a = true)).
Proof.
  intros T N load absorb ld le NB a n mt H. destruct (neutron_inv load absorb ld le NB a n H) as (mts & _ & _ & _ & L). rewrite L. unfold nmt, mtr_entry.
  assert (Z.of_nat (Z.to_nat (wrap32 (nxs a 3))) = wrap32 (nxs a 3)) as ->. { apply Z2Nat.id. unfold wrap32. apply Z.mod_pos_bound. lia. }
  assert (Q : is_fission_mt mt = true <-> In mt [18; 19; 20; 21; 38]%Z). { rewrite fission_mts. cbn. split; intuition lia. }
  split; intros (k & K1 & K2 & K3); exists k; (split; [exact K1|]; split; [exact K2|]); intros G; apply K3; apply Q; exact G.
Qed.
Print Assumptions C37_list.
(** derived objects: the same for MT > 0 *)
Theorem C37_derived_lookup_partial : forall T (N : Num T) load absorb load_delayed load_elastic (n : neutron T) mt, neutron_obj load absorb load_delayed load_elastic n -> (0 < mt)%Z ->
  (In mt (n_mts n) -> neutron_has n mt = Ok true /\ exists r, neutron_reaction n mt = Ok r /\ rx_mt r = mt) /\
  (~ In mt (n_mts n) -> neutron_has n mt = Ok false /\ neutron_reaction n mt = Throw).
Proof. intros T N load absorb ld le n mt O Hm. exact (obj_lookup load absorb ld le n O mt Hm). Qed.
Print Assumptions C37_derived_lookup_partial.
(** no lookup on any object reaches outside the arrays, and has_reaction always predicts reaction *)
Theorem C37_lookup_safe : forall T (N : Num T) load absorb load_delayed load_elastic (n : neutron T) mt, neutron_obj load absorb load_delayed load_elastic n -> (0 <= mt)%Z ->
  exists b, neutron_has n mt = Ok b /\ (b = true -> exists r, neutron_reaction n mt = Ok r /\ rx_mt r = mt) /\ (b = false -> neutron_reaction n mt = Throw).
Proof. intros T N load absorb ld le n mt O Hm. exact (obj_safe load absorb ld le n O mt Hm). Qed.
Print Assumptions C37_lookup_safe.
Theorem C37_list_sorted : forall T (N : Num T) load absorb load_delayed load_elastic (n : neutron T), neutron_obj load absorb load_delayed load_elastic n -> Sorted Z.le (n_mts n).
Proof. intros T N load absorb ld le n O. exact (obj_sorted load absorb ld le n O). Qed.
Print Assumptions C37_list_sorted.
(** the object derived from another object lists MT 0 *)
Theorem C37_mt0_refuted : forall load absorb load_delayed el, exists n n2, make_neutron load absorb load_delayed (fun _ => Ok el) 1 (ex 102) = Ok n /\ make_neutron_from absorb 1 (ex 102) n = Ok n2 /\
  In 0%Z (n_mts n2) /\ neutron_has n2 0 = Ok false.
Proof.
  intros load absorb ld el. destruct (ex_neutron load absorb ld el) as (n & r & Hn & _). destruct (ex_from _ _ _ _ n Hn) as (n2 & H2). exists n, n2. split; [exact Hn|]. split; [exact H2|].
  destruct (from_zero load absorb ld (fun _ => Ok el) 1 (ex 102) n n2 ltac:(vm_compute; lia) H2) as [I Z0]. split; [exact I|]. apply Z0. exact (ex_no_mt0).
Qed.
Print Assumptions C37_mt0_refuted.
(** an MT of 892 or more in the file: an out-of-range write instead of an error *)
Theorem C37_big_mt_refuted : forall load absorb load_delayed el, make_neutron load absorb load_delayed (fun _ => Ok el) 1 (ex 900) = UB.
Proof. exact ex_mt900. Qed.
Print Assumptions C37_big_mt_refuted.
(** a file with an MT that the first object lacks: an out-of-range read instead of an error *)
Theorem C37_missing_mt_refuted : forall load absorb load_delayed el n, make_neutron load absorb load_delayed (fun _ => Ok el) 1 (ex 102) = Ok n -> make_neutron_from absorb 1 (ex 103) n = UB.
Proof. exact ex_from_missing. Qed.
Print Assumptions C37_missing_mt_refuted.
Example C37_nonvacuous : forall load absorb load_delayed el, exists n, make_neutron load absorb load_delayed (fun _ => Ok el) 1 (ex 102) = Ok n /\ n_mts n = [102%Z].
Proof. intros load absorb ld el. destruct (ex_neutron load absorb ld el) as (n & r & Hn & _ & _ & _ & _ & Hm & _). exists n. auto. Qed.

(** ** C38: probability tables *)
(** full claim: a result exactly for energies in the table range. Proved for tables with at least three incident energies *)
Theorem C38_inside_partial : forall load absorb load_delayed load_elastic n E xi, held load absorb load_delayed load_elastic n -> strictly_increasing (g_vals (n_grid n)) -> getR (g_vals (n_grid n)) 0 <= E ->
  let u := n_urr n in (3 <= sizeZ (u_energy u))%Z -> getR (u_energy u) 0 <= E <= getR (u_energy u) (sizeZ (u_energy u) - 1) -> xi <= 1 ->
  exists p other, urr_evaluate' u E xi = Ok (Some p) /\
    0 <= elastic p /\ 0 <= inelastic p /\ 0 <= capture p /\ 0 <= fission p /\ 0 <= heating p /\ 0 <= other /\
    absorption p = capture p + fission p + other /\ total p = elastic p + inelastic p + absorption p.
Proof.
  intros load absorb ld le n E xi O SI HE u L R X. destruct (held_urr_eval _ _ _ _ n E xi O SI HE L R X) as (i & p & other & _ & H1 & _ & P1 & P2 & P3 & P4 & P5 & P6 & _ & _ & A & S & _).
  exists p, other. repeat (split; [assumption|]). assumption.
Qed.
Print Assumptions C38_inside_partial.
Theorem C38_outside : forall (u : urr R) E i xi, (sizeZ (u_energy u) <= 2)%Z \/ E < getR (u_energy u) 0 \/ getR (u_energy u) (sizeZ (u_energy u) - 1) < E -> urr_evaluate u E i xi = Ok None.
Proof. exact urr_eval_none. Qed.
Print Assumptions C38_outside.
(** the values: the bands that xi selects in the two tables around E, interpolated, times the smooth cross section if the table holds
    factors, not below zero *)
Theorem C38_values : forall load absorb load_delayed load_elastic n E xi, held load absorb load_delayed load_elastic n -> strictly_increasing (g_vals (n_grid n)) -> getR (g_vals (n_grid n)) 0 <= E ->
  let u := n_urr n in (3 <= sizeZ (u_energy u))%Z -> getR (u_energy u) 0 <= E <= getR (u_energy u) (sizeZ (u_energy u) - 1) -> xi <= 1 ->
  strictly_increasing (u_energy u) -> (u_loglog u = true -> 0 < getR (u_energy u) 0) ->
  exists i p k tl th jl jh bl bh se sc sf sh, get_lower_index (n_grid n) E = Ok i /\ urr_evaluate' u E xi = Ok (Some p) /\ urr_evaluate u E i xi = Ok (Some p) /\
    (0 <= k < sizeZ (u_energy u) - 1)%Z /\ getR (u_energy u) k <= E <= getR (u_energy u) (k + 1) /\
    atZ (u_ptables u) k = Ok tl /\ atZ (u_ptables u) (k + 1) = Ok th /\ in_band (pt_cdf tl) xi jl /\ in_band (pt_cdf th) xi jh /\
    atZ (pt_bands tl) jl = Ok bl /\ atZ (pt_bands th) jh = Ok bh /\
    xs_eval_i (u_elastic u) E i = Ok se /\ xs_eval_i (u_capture u) E i = Ok sc /\ xs_eval_i (u_fission u) E i = Ok sf /\ xs_eval_i (u_heating u) E i = Ok sh /\
    elastic p = partial_value u E k bl bh b_elastic se /\ capture p = partial_value u E k bl bh b_capture sc /\
    fission p = partial_value u E k bl bh b_fission sf /\ heating p = partial_value u E k bl bh b_heating sh.
Proof.
  intros load absorb ld le n E xi O SI HE u L R X S1 S2. destruct (held_urr_eval _ _ _ _ n E xi O SI HE L R X) as (i & p & other & Hi & H1 & H1' & P1 & P2 & P3 & P4 & P5 & P6 & _ & _ & A & S & V).
  destruct (V S1 S2) as (k & tl & th & jl & jh & bl & bh & se & sc & sf & sh & W). exists i, p, k, tl, th, jl, jh, bl, bh, se, sc, sf, sh. split; [exact Hi|]. split; [exact H1|]. split; [exact H1'|]. exact W.
Qed.
Print Assumptions C38_values.
(** the competing reactions are the object's own reactions *)
Theorem C38_competition : forall load absorb load_delayed load_elastic n E xi, held load absorb load_delayed load_elastic n -> strictly_increasing (g_vals (n_grid n)) -> getR (g_vals (n_grid n)) 0 <= E ->
  let u := n_urr n in (3 <= sizeZ (u_energy u))%Z -> getR (u_energy u) 0 <= E <= getR (u_energy u) (sizeZ (u_energy u) - 1) -> xi <= 1 ->
  exists i p other, get_lower_index (n_grid n) E = Ok i /\ urr_evaluate' u E xi = Ok (Some p) /\ absorption p = capture p + fission p + other /\
    match u_inelastic u with Some x => xs_eval_i x E i = Ok (inelastic p) | None => inelastic p = 0 end /\
    match u_absorption u with Some x => xs_eval_i x E i = Ok other | None => other = 0 end.
Proof.
  intros load absorb ld le n E xi O SI HE u L R X. destruct (held_urr_eval _ _ _ _ n E xi O SI HE L R X) as (i & p & other & Hi & H1 & _ & _ & _ & _ & _ & _ & _ & I1 & I2 & A & _).
  exists i, p, other. split; [exact Hi|]. split; [exact H1|]. split; [exact A|]. fold u in I1, I2. unfold opt_eval in I1, I2. split.
  - destruct (u_inelastic u); [exact I1|]. injection I1 as I1. symmetry. exact I1.
  - destruct (u_absorption u); [exact I2|]. injection I2 as I2. symmetry. exact I2.
Qed.
Print Assumptions C38_competition.
(** what is in the tables of a held object: a cdf with a positive first entry that ends at exactly one, and nonnegative bands *)
Theorem C38_tables : forall load absorb load_delayed load_elastic n, held load absorb load_delayed load_elastic n -> length (u_ptables (n_urr n)) = length (u_energy (n_urr n)) /\
  exists m, forall t, In t (u_ptables (n_urr n)) -> sizeZ (pt_cdf t) = m /\ sizeZ (pt_bands t) = m /\ (0 < m)%Z /\ 0 < getR (pt_cdf t) 0 /\ getR (pt_cdf t) (m - 1) = 1 /\
    (forall i j, (0 <= i <= j)%Z -> (j < m - 1)%Z -> getR (pt_cdf t) i <= getR (pt_cdf t) j) /\
    forall b, In b (pt_bands t) -> 0 <= b_total b /\ 0 <= b_elastic b /\ 0 <= b_fission b /\ 0 <= b_capture b.
Proof.
  intros load absorb ld le n O. destruct (held_tables _ _ _ _ n O) as (m & L & A). split; [exact L|]. exists m. intros t I. rewrite Forall_forall in A. destruct (A t I) as [(S1 & S2 & S3) La Fi So Be Ba].
  repeat (split; [assumption|]). intros b Ib. rewrite Forall_forall in Ba. exact (Ba b Ib).
Qed.
Print Assumptions C38_tables.
(** a table with exactly two energies: energy_in_range says yes, the evaluation returns nothing *)
Theorem C38_two_energies_refuted : forall el ca fi he rs, exists u, make_urr ex2 el ca fi he rs = Ok u /\ urr_in_range u (3/2) = Ok true /\ forall i xi, urr_evaluate u (3/2) i xi = Ok None.
Proof.
  intros el ca fi he rs. destruct (ex2_urr el ca fi he rs) as (u & Hu & He). exists u. split; [exact Hu|]. split.
  - apply urr_range_spec. rewrite He. change (sizeZ [1; 2]) with 2%Z. split; [lia|]. change (2 - 1)%Z with 1%Z. change (getR [1; 2] 0) with 1; change (getR [1; 2] 1) with 2; lra.
  - intros i xi. apply urr_eval_none. left. rewrite He. cbn. lia.
Qed.
Print Assumptions C38_two_energies_refuted.
Theorem C38_in_range : forall (u : urr R) E, urr_in_range u E = Ok true <-> (2 <= sizeZ (u_energy u))%Z /\ getR (u_energy u) 0 <= E <= getR (u_energy u) (sizeZ (u_energy u) - 1).
Proof. exact urr_range_spec. Qed.
Print Assumptions C38_in_range.
Example C38_nonvacuous : forall load absorb load_delayed el, exists n, held load absorb load_delayed (fun _ => Ok el) n /\ strictly_increasing (g_vals (n_grid n)) /\ getR (g_vals (n_grid n)) 0 <= 5/4 /\
  u_energy (n_urr n) = [1; 3/2; 2] /\ strictly_increasing (u_energy (n_urr n)) /\ u_loglog (n_urr n) = false.
Proof.
  intros load absorb ld el. destruct (ex_neutron load absorb ld el) as (n & r & Hn & Hg & _ & _ & _ & _ & Hu & Hl & _). exists n. rewrite Hg, Hu. split; [eapply held_file; [apply ex_fits| |exact Hn]; split; lia|].
  split; [apply exg_strict|]. split; [unfold getR; cbn; lra|]. split; [reflexivity|]. split; [|exact Hl].
  intros i j Hi Hj Hs. change (sizeZ [1; 3/2; 2]) with 3%Z in Hs.
  assert (C : (i = 0 /\ j = 1 \/ i = 0 /\ j = 2 \/ i = 1 /\ j = 2)%Z) by lia. destruct C as [[-> ->]|[[-> ->]|[-> ->]]]; change (getR [1; 3/2; 2] 0) with 1; change (getR [1; 3/2; 2] 1) with (3/2); change (getR [1; 3/2; 2] 2) with 2; lra.
Qed.

(** ** C39: multiplicities *)
(** full claim: for every combination of blocks. With f, p, t, d the functions in the file's blocks: *)
Theorem C39_one_block : forall (a : ace R) f b, a_fissile a = true -> (0 < jxs a 1)%Z -> (jxs a 23 <= 0)%Z -> nu_block f b -> holds a (NU a) b -> make_nus a = Ok (mkNus f f (FConst 0)).
Proof. exact nus_single. Qed.
Print Assumptions C39_one_block.
Theorem C39_prompt_and_delayed : forall (a : ace R) p bp d bd, a_fissile a = true -> (0 < jxs a 1)%Z -> (1 < jxs a 23)%Z -> nu_block p bp -> holds a (NU a) bp -> nu_block d bd -> holds a (DNU a) bd ->
  make_nus a = Ok (mkNus (FSum p d) p d).
Proof. exact nus_prompt_delayed. Qed.
Print Assumptions C39_prompt_and_delayed.
(** a NU block with both: minus the length of the prompt block, the prompt block, the total block *)
Theorem C39_prompt_and_total : forall (a : ace R) p bp t bt, a_fissile a = true -> (0 < jxs a 1 < 2 ^ 30)%Z -> (jxs a 23 <= 0)%Z -> nu_block p bp -> nu_block t bt -> (sizeZ bp < 2 ^ 30)%Z ->
  holds a (NU a) ([- IZR (sizeZ bp)] ++ bp ++ bt) -> make_nus a = Ok (mkNus t p (FDiff t p)).
Proof. exact nus_total_prompt. Qed.
Print Assumptions C39_prompt_and_total.
Theorem C39_all_three : forall (a : ace R) p bp t bt d bd, a_fissile a = true -> (0 < jxs a 1 < 2 ^ 30)%Z -> (1 < jxs a 23)%Z -> nu_block p bp -> nu_block t bt -> (sizeZ bp < 2 ^ 30)%Z ->
  holds a (NU a) ([- IZR (sizeZ bp)] ++ bp ++ bt) -> nu_block d bd -> holds a (DNU a) bd -> make_nus a = Ok (mkNus t p d).
Proof. exact nus_all. Qed.
Print Assumptions C39_all_three.
Theorem C39_not_fissile : forall a : ace R, a_fissile a = false -> make_nus a = Ok (mkNus (FConst 0) (FConst 0) (FConst 0)).
Proof. exact nus_nonfissile. Qed.
Print Assumptions C39_not_fissile.
(** total = prompt + delayed whenever the NU block is present, the delayed block does not start at XSS(1), and not all three functions are given *)
Theorem C39_consistent_partial : forall (a : ace R) ns E t p d, make_nus a = Ok ns ->
  (a_fissile a = true -> (0 < jxs a 1)%Z /\ jxs a 23 <> 1%Z /\ ((0 < jxs a 23)%Z -> exists x, xss a (NU a) = Ok x /\ 0 < x)) ->
  feval (nu_total ns) E = Ok t -> feval (nu_prompt ns) E = Ok p -> feval (nu_delayed ns) E = Ok d -> t = p + d.
Proof. exact nus_consistent. Qed.
Print Assumptions C39_consistent_partial.
Theorem C39_three_blocks_refuted : exists (a : ace R) ns, make_nus a = Ok ns /\ forall E, exists t p d, feval (nu_total ns) E = Ok t /\ feval (nu_prompt ns) E = Ok p /\ feval (nu_delayed ns) E = Ok d /\ t <> p + d.
Proof. eexists nu3, _. split; [exact nu3_nus|]. intros E. exists 3, 2, 2. cbn [nu_total nu_prompt nu_delayed]. rewrite !const_eval. repeat (split; [reflexivity|]). lra. Qed.
Print Assumptions C39_three_blocks_refuted.
(** DNU is compared after one has been subtracted: a delayed block at the first entry is ignored and the total becomes zero *)
Theorem C39_delayed_first_refuted : exists (a : ace R) ns, jxs a 23 = 1%Z /\ holds a (DNU a) (poly_block [1]) /\ holds a (NU a) (poly_block [2]) /\ make_nus a = Ok ns /\
  forall E, feval (nu_total ns) E = Ok 0 /\ feval (nu_prompt ns) E = Ok 2 /\ feval (nu_delayed ns) E = Ok 0.
Proof.
  eexists nu1, _. split; [reflexivity|]. split; [exists [], (const_block 2); split; reflexivity|]. split; [exists (const_block 1), []; split; reflexivity|]. split; [exact nu1_nus|].
  intros E. cbn [nu_total nu_prompt nu_delayed]. rewrite const_eval. repeat split.
Qed.
Print Assumptions C39_delayed_first_refuted.
Theorem C39_delayed_only_refuted : exists (a : ace R) ns, make_nus a = Ok ns /\ forall E, exists t p d, feval (nu_total ns) E = Ok t /\ feval (nu_prompt ns) E = Ok p /\ feval (nu_delayed ns) E = Ok d /\ t <> p + d.
Proof. eexists nu0, _. split; [exact nu0_nus|]. intros E. exists 1, 1, 1. cbn [nu_total nu_prompt nu_delayed]. rewrite !const_eval. repeat (split; [reflexivity|]). lra. Qed.
Print Assumptions C39_delayed_only_refuted.
Example C39_nonvacuous : exists f b g c, nu_block f b /\ holds nua (NU nua) b /\ nu_block g c /\ holds nua (DNU nua) c /\ (0 < jxs nua 1)%Z /\ (1 < jxs nua 23)%Z /\ a_fissile nua = true.
Proof. eexists _, _, _, _. exact nua_ok. Qed.

(** ** C64: the fission cross section *)
Theorem C64_mt18 : forall load absorb load_delayed load_elastic NB (a : ace R) n r, make_neutron load absorb load_delayed load_elastic NB a = Ok n -> a_fissile a = true -> neutron_reaction n 18 = Ok r -> n_fission_xs n = rx_xs r.
Proof. exact fission_mt18. Qed.
Print Assumptions C64_mt18.
Theorem C64_sum_at_grid_points : forall load absorb load_delayed load_elastic NB (a : ace R) n i, fits a -> bins_ok NB -> make_neutron load absorb load_delayed load_elastic NB a = Ok n -> a_fissile a = true ->
  neutron_has n 18 = Ok false -> (0 <= i < sizeZ (g_vals (n_grid n)))%Z ->
  exists v19 v20 v21 v38, chance_value n 19 (fun x => xs_at x i) v19 /\ chance_value n 20 (fun x => xs_at x i) v20 /\ chance_value n 21 (fun x => xs_at x i) v21 /\ chance_value n 38 (fun x => xs_at x i) v38 /\
    xs_at (n_fission_xs n) i = Ok (v19 + v20 + v21 + v38).
Proof. exact fission_sum_points. Qed.
Print Assumptions C64_sum_at_grid_points.
(** full claim: between grid points too. It holds unless a chance opens at the upper point with a value other than zero *)
Theorem C64_sum_between_partial : forall load absorb load_delayed load_elastic NB (a : ace R) n E i, fits a -> bins_ok NB -> make_neutron load absorb load_delayed load_elastic NB a = Ok n -> a_fissile a = true ->
  neutron_has n 18 = Ok false -> (0 <= i < sizeZ (g_vals (n_grid n)))%Z ->
  (forall mt r v, (mt = 19 \/ mt = 20 \/ mt = 21 \/ mt = 38)%Z -> neutron_reaction n mt = Ok r -> x_index (rx_xs r) = (i + 1)%Z -> xs_at (rx_xs r) (i + 1) = Ok v -> v = 0) ->
  exists v19 v20 v21 v38, chance_value n 19 (fun x => xs_eval_i x E i) v19 /\ chance_value n 20 (fun x => xs_eval_i x E i) v20 /\ chance_value n 21 (fun x => xs_eval_i x E i) v21 /\ chance_value n 38 (fun x => xs_eval_i x E i) v38 /\
    xs_eval_i (n_fission_xs n) E i = Ok (v19 + v20 + v21 + v38).
Proof. exact fission_sum_eval. Qed.
Print Assumptions C64_sum_between_partial.
Theorem C64_between_refuted : forall load absorb load_delayed el, exists n s, make_neutron load absorb load_delayed (fun _ => Ok el) 1 exf = Ok n /\
  (forall mt, (mt = 19 \/ mt = 20 \/ mt = 21)%Z -> exists r, neutron_reaction n mt = Ok r /\ xs_eval_i (rx_xs r) (3/2) 0 = Ok 1) /\
  (exists r, neutron_reaction n 38 = Ok r /\ xs_eval_i (rx_xs r) (3/2) 0 = Ok 0) /\ xs_eval_i (n_fission_xs n) (3/2) 0 = Ok s /\ s <> 1 + 1 + 1 + 0.
Proof. intros load absorb ld el. destruct (exf_neutron load absorb ld el) as (n & Hn & _). destruct (exf_between _ _ _ _ n Hn) as (s & H). exists n, s. split; [exact Hn|exact H]. Qed.
Print Assumptions C64_between_refuted.
(** a file that gives some of the chances but not all four (and no MT 18) is never accepted *)
Theorem C64_all_chances_needed : forall T (N : Num T) load absorb load_delayed load_elastic NB (a : ace T) n mt mt', make_neutron load absorb load_delayed load_elastic NB a = Ok n ->
  In mt [19; 20; 21; 38]%Z -> In mt' [19; 20; 21; 38]%Z -> neutron_has n 18 = Ok false -> neutron_has n mt = Ok true -> neutron_has n mt' = Ok true.
Proof.
  intros T N load absorb ld le NB a n mt mt' H I I' H18 Hm. destruct (neutron_parts load absorb ld le NB a n H) as (g & xs & mts & idx & rs & f & _ & _ & _ & Ef & En).
  destruct (finish_fields _ _ _ _ _ _ _ _ _ _ _ En) as (_ & _ & _ & F4 & _).
  assert (G : forall m, In m [18; 19; 20; 21; 38]%Z -> neutron_has n m = Ok (match fission_slot f m with Some _ => true | None => false end)).
  { intros m Hi. unfold neutron_has, has_reaction. rewrite (proj2 (fission_mts m)) by (cbn in Hi; intuition lia). rewrite F4. reflexivity. }
  assert (J : In mt [18; 19; 20; 21; 38]%Z) by (cbn in *; tauto). assert (J' : In mt' [18; 19; 20; 21; 38]%Z) by (cbn in *; tauto).
  rewrite (G mt J) in Hm. rewrite (G mt' J'). rewrite (G 18%Z) in H18 by (cbn; auto). clear G H En.
  unfold make_fission in Ef. apply bind_ok in Ef as (ns & _ & Ef). destruct (a_fissile a).
  - apply bind_ok in Ef as (fam & _ & Ef). apply bind_ok in Ef as (s & _ & Ef). apply bind_ok in Ef as (ps & Ep & Ef). injection Ef as <-.
    unfold fission_slot in *. cbn [f18 f19 f20 f21 f38] in *. unfold get_slot in *. change (18 =? 18)%Z with true in H18. cbv iota in H18.
    destruct s as [r18 r19 r20 r21 r38 ml]. cbn [s18 s19 s20 s21 s38] in *. unfold prompt_spectrum in Ep. cbn [s18 s19 s20 s21 s38] in Ep. destruct r18; [discriminate|].
    destruct I as [<-|[<-|[<-|[<-|[]]]]], I' as [<-|[<-|[<-|[<-|[]]]]]; cbn in *; destruct r19, r20, r21, r38; try discriminate; reflexivity.
  - injection Ef as <-. unfold fission_slot in Hm. cbn in Hm. unfold get_slot in Hm. repeat destruct (_ =? _)%Z in Hm; discriminate.
Qed.
Print Assumptions C64_all_chances_needed.
Example C64_nonvacuous : fits exf /\ bins_ok 1 /\ a_fissile exf = true /\ forall load absorb load_delayed el, exists n, make_neutron load absorb load_delayed (fun _ => Ok el) 1 exf = Ok n /\ neutron_has n 18 = Ok false.
Proof. split; [exact exf_fits|]. split; [split; lia|]. split; [reflexivity|]. intros load absorb ld el. destruct (exf_neutron load absorb ld el) as (n & Hn & _ & H18 & _). exists n. auto. Qed.

(** ** C65: ACE blocks are decoded as the format lays them out *)
Theorem C65_polynomial : forall (a : ace R) i c, u32 (sizeZ c) -> holds a i (poly_block c) -> read_nu a i = Ok (FPoly c).
Proof. exact read_poly. Qed.
Print Assumptions C65_polynomial.
Theorem C65_tabulated : forall (a : ace R) i NBT INT energy y, length INT = length NBT -> length y = length energy -> Forall u32 NBT -> Forall u32 INT -> (sizeZ NBT < 2 ^ 31)%Z -> u32 (sizeZ energy) ->
  holds a i (tab_block NBT INT energy y) ->
  read_tab a i = match INT with
                 | [] => make_tab1 LinLin energy y
                 | [c] => make_tab1 (endf_interp c) energy y
                 | _ => make_tab NBT (map endf_interp INT) energy y
                 end.
Proof. exact read_tab_block. Qed.
Print Assumptions C65_tabulated.
Theorem C65_multiplicity : forall (a : ace R) i f b, nu_block f b -> holds a i b -> read_nu a i = Ok f.
Proof. exact read_nu_block. Qed.
Print Assumptions C65_multiplicity.
Theorem C65_probability_table : forall (a : ace R) i cdf t e f c h, length t = length cdf -> length e = length cdf -> length f = length cdf -> length c = length cdf -> length h = length cdf ->
  L_SearchR.increasing cdf -> 0 < getR cdf 0 -> Rabs (1 - getR cdf (sizeZ cdf - 1)) < / 1000000000000000 -> L_Xs.nonneg t -> L_Xs.nonneg e -> L_Xs.nonneg f -> L_Xs.nonneg c ->
  holds a i (ptable_block cdf t e f c h) ->
  exists p, read_ptable a i (sizeZ cdf) = Ok p /\ pt_bands p = zip_bands t e f c h /\ sizeZ (pt_cdf p) = sizeZ cdf /\ getR (pt_cdf p) (sizeZ cdf - 1) = 1 /\
    forall k, (0 <= k < sizeZ cdf - 1)%Z -> getR (pt_cdf p) k = getR cdf k.
Proof. exact read_ptable_block. Qed.
Print Assumptions C65_probability_table.
Theorem C65_negative_column_throws : forall (a : ace R) l i, ~ L_Xs.nonneg l -> holds a i l -> column_nonneg a i (sizeZ l) = Throw.
Proof. exact holds_column_negative. Qed.
Print Assumptions C65_negative_column_throws.
Example C65_nonvacuous : holds (mkAce 1001%Z 1 300 false [] [] ([7] ++ tab_block [2; 3]%Z [1; 2]%Z [1; 2; 3] [4; 5; 6])) 1 (tab_block [2; 3]%Z [1; 2]%Z [1; 2; 3] [4; 5; 6]) /\ Forall u32 [2; 3]%Z /\ Forall u32 [1; 2]%Z.
Proof. split; [exists [7], []; split; [rewrite app_nil_r; reflexivity|reflexivity]|]. split; repeat constructor; unfold u32; lia. Qed.
