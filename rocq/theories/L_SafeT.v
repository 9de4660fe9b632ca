(** * The thermal samplers never read out of range, in any arithmetic where picking one of n cells yields a cell. *)
From Coq Require Import Lia List ZifyBool ZifyNat.
From Verif Require Import Base L_Search L_PC L_Neutron2 M_Interp M_Tab1D M_Func M_Grid M_Ace M_PC M_OutE M_Thermal.
Import ListNotations.
Local Open Scope Z_scope.

Section Safe.
  Context {T : Type} {N : Num T}.

  (** the binary search ends inside its range whatever the comparisons say *)
  Lemma search_range v x : forall fuel first len, (Z.to_nat len < fuel)%nat -> 0 <= first -> 0 <= len -> first + len <= sizeZ v ->
    exists k, lower_bound_loop fuel v first len x = Ok k /\ first <= k <= first + len /\
      (0 < len -> k = first -> exists a, atZ v first = Ok a /\ nltb a x = false).
  Proof.
    induction fuel as [|f IH]; intros first len Hf H0 Hl Hs; [lia|].
    cbn [lower_bound_loop]. destruct (Z.leb_spec len 0).
    - exists first. repeat split; lia.
    - pose proof (Z.div_mod len 2 ltac:(lia)). pose proof (Z.mod_pos_bound len 2 ltac:(lia)). set (half := len / 2) in *.
      destruct (atZ_ok v (first + half)) as [m Hm]; [lia|]. rewrite Hm. cbn [bind]. destruct (nltb m x) eqn:C.
      + destruct (IH (first + half + 1) (len - half - 1)) as (k & K1 & K2 & K3); try lia. exists k. repeat split; [exact K1|lia|lia|lia].
      + destruct (IH first half) as (k & K1 & K2 & K3); try lia. exists k. split; [exact K1|]. split; [lia|].
        intros _ Hk. destruct (Z.eq_dec half 0) as [E|E]; [|apply K3; lia]. exists m. rewrite <- Hm. split; [f_equal; lia|exact C].
  Qed.
  Lemma lower_bound_range_any v x : exists k, lower_bound v x = Ok k /\ 0 <= k <= sizeZ v /\ (0 < sizeZ v -> k = 0 -> exists a, atZ v 0 = Ok a /\ nltb a x = false).
  Proof.
    unfold lower_bound. destruct (search_range v x (S (length v)) 0 (sizeZ v)) as (k & K1 & K2 & K3); unfold sizeZ in *; try lia.
    exists k. repeat split; [exact K1|lia|lia|exact K3].
  Qed.
  Lemma select_any energy E : 2 <= sizeZ energy -> exists l f, select energy E = Ok (l, f) /\ 0 <= l /\ l + 1 < sizeZ energy.
  Proof.
    intros S. unfold select. destruct (lower_bound_range_any energy E) as (k & -> & K & _). cbn [bind].
    destruct (Z.eqb_spec k 0); [exists 0, (nofZ 0); split; [reflexivity|lia]|].
    destruct (Z.eqb_spec k (sizeZ energy)); [exists (sizeZ energy - 2), (nofZ 1); split; [reflexivity|lia]|].
    destruct (atZ_ok energy (k - 1)) as [e1 ->]; [lia|]. destruct (atZ_ok energy (k - 1 + 1)) as [e2 ->]; [lia|]. cbn [bind].
    eexists _, _. split; [reflexivity|lia].
  Qed.

  (** shapes of the accepted objects *)
  Definition shape_coh (c : coh T) : Prop := sizeZ (c_sum c) = sizeZ (c_edges c).
  Definition shape_inco (d : inco T) : Prop := 0 < ie_nmu d < 2 ^ 32 /\ sizeZ (ie_cos d) = sizeZ (ie_in d) /\ forall r, In r (ie_cos d) -> sizeZ r = ie_nmu d.
  Definition shape_dce (d : dce T) : Prop := 0 < d_noe d < 2 ^ 32 /\ 0 < d_nmu d < 2 ^ 32 /\ (d_skewed d = true -> 6 <= d_noe d) /\ 0 < sizeZ (d_in d) /\
    sizeZ (d_out d) = sizeZ (d_in d) /\ (forall row, In row (d_out d) -> sizeZ row = d_noe d) /\ forall row e, In row (d_out d) -> In e row -> sizeZ (snd e) = d_nmu d.
  Definition shape_ctab (nmu : Z) (t : ctable T) : Prop := 0 < sizeZ (ct_energy t) /\ sizeZ (ct_pdf t) = sizeZ (ct_energy t) /\ sizeZ (ct_cdf t) = sizeZ (ct_energy t) /\
    sizeZ (ct_cos t) = sizeZ (ct_energy t) /\ forall r, In r (ct_cos t) -> sizeZ r = nmu.
  Definition shape_cont (d : cedc T) : Prop := 0 < ce_nmu d < 2 ^ 32 /\ sizeZ (ce_tables d) = sizeZ (ce_in d) /\ forall t, In t (ce_tables d) -> shape_ctab (ce_nmu d) t.

  Lemma xss_vec_len (a : ace T) i n v : xss_vec a i n = Ok v -> sizeZ v = n /\ 0 <= n.
  Proof. unfold xss_vec. intros H. apply slice_size in H as (A & B & C). split; lia. Qed.
  Lemma wrap_range z : 0 <= wrap32 z < 2 ^ 32. Proof. apply Z.mod_pos_bound. lia. Qed.
  Lemma make_coh_shape a c : make_coh a = Ok c -> shape_coh c.
  Proof.
    unfold make_coh, shape_coh. intros M. destruct (nxs a 4 =? 4); [|injection M as <-; reflexivity].
    apply bind_ok in M as (Ne & _ & M). apply bind_ok in M as (es & E1 & M). apply bind_ok in M as (ss & E2 & M). apply bind_ok in M as (? & _ & M).
    apply bind_ok in M as (e0 & _ & M). destruct (nltb e0 _); [discriminate|]. injection M as <-. apply xss_vec_len in E1, E2. cbn. lia.
  Qed.
  Lemma read_cosines_shape a nmu : forall k i rows, read_cosines k a i nmu = Ok rows -> length rows = k /\ (forall r, In r rows -> sizeZ r = nmu) /\ ((0 < k)%nat -> 0 < nmu).
  Proof.
    induction k as [|k IH]; intros i rows H; cbn [read_cosines] in H; [injection H as <-; split; [reflexivity|split; [intros ? []|lia]]|].
    apply bind_ok in H as (row & E & H). apply bind_ok in H as (? & G & H). apply bind_ok in H as (c0 & E0 & H). destruct (nltb c0 _); [discriminate|].
    apply bind_ok in H as (cn & En & H). destruct (nltb _ cn); [discriminate|]. apply bind_ok in H as (rest & ER & H). injection H as <-.
    apply IH in ER as (L & R & _). apply xss_vec_len in E as [S _]. unfold frontR in E0. apply atZ_inv in E0 as [S0 _]. split; [cbn; lia|]. split; [intros r [<-|Hr]; auto|lia].
  Qed.
  Lemma make_inco_shape a d : make_inco a = Ok d -> 0 < sizeZ (ie_in d) -> shape_inco d.
  Proof.
    unfold make_inco. intros M S. destruct ((nxs a 4 =? 4) || (jxs a 3 =? 0))%bool.
    { apply bind_ok in M as (t & _ & M). injection M as <-. cbn in S. lia. }
    apply bind_ok in M as (Ne & EN & M). apply bind_ok in M as (en & E1 & M). apply bind_ok in M as (vals & E2 & M). apply bind_ok in M as (? & G & M).
    apply bind_ok in M as (t & ET & M). apply bind_ok in M as (rows & ER & M). injection M as <-. cbn [ie_in] in S.
    pose proof (wrap_range (nxs a 5 + 1)) as W. apply read_cosines_shape in ER as (L & R & P). apply xss_vec_len in E1 as [SE _].
    unfold shape_inco. cbn [ie_nmu ie_in ie_cos]. split; [split; [apply P; lia|lia]|]. split; [unfold sizeZ in *; lia|exact R].
  Qed.
  Lemma read_dce_row_shape a nmu : forall k i row i', read_dce_row k a i nmu = Ok (row, i') -> length row = k /\ forall e, In e row -> sizeZ (snd e) = nmu.
  Proof.
    induction k as [|k IH]; intros i row i' H; cbn [read_dce_row] in H; [injection H as <- <-; split; [reflexivity|intros ? []]|].
    apply bind_ok in H as (E & EE & H). destruct (nleb E _); [discriminate|]. apply bind_ok in H as (mu & EM & H).
    apply bind_ok in H as (? & G & H). apply bind_ok in H as ([rest i''] & ER & H). injection H as <- <-.
    apply IH in ER as [L R]. split; [cbn; lia|]. apply xss_vec_len in EM as [S _]. intros e [<-|He]; [exact S|apply R; exact He].
  Qed.
  Lemma read_dce_shape a nmu noe : forall k i out, read_dce k noe a i nmu = Ok out ->
    length out = k /\ forall row, In row out -> length row = noe /\ forall e, In e row -> sizeZ (snd e) = nmu.
  Proof.
    induction k as [|k IH]; intros i out H; cbn [read_dce] in H; [injection H as <-; split; [reflexivity|intros ? []]|].
    apply bind_ok in H as ([row i'] & E & H). apply bind_ok in H as (rest & ER & H). injection H as <-. apply IH in ER as [L R].
    apply read_dce_row_shape in E. split; [cbn; lia|]. intros r [<-|Hr]; [exact E|apply R; exact Hr].
  Qed.
  Lemma make_dce_shape a d : make_dce a = Ok d -> 0 < sizeZ (d_in d) -> 0 < d_noe d -> 0 < d_nmu d -> shape_dce d.
  Proof.
    unfold make_dce. intros M S HN HM. apply bind_ok in M as (? & G0 & M). apply bind_ok in M as (Ne & EN & M). apply bind_ok in M as (en & E1 & M).
    apply bind_ok in M as (? & G1 & M). apply bind_ok in M as (? & G2 & M). apply guard_ok in G2.
    apply bind_ok in M as (out & EO & M). injection M as <-. cbn [d_in d_noe d_nmu] in *. apply xss_vec_len in E1 as [SE SN].
    apply read_dce_shape in EO as [L R]. pose proof (wrap_range (nxs a 3)). pose proof (wrap_range (nxs a 2 + 1)).
    unfold shape_dce. cbn [d_in d_noe d_nmu d_out d_skewed]. split; [lia|]. split; [lia|]. split; [lia|]. split; [exact S|].
    split; [unfold sizeZ in *; lia|]. split; [intros row Hr; apply R in Hr as [Hr _]; unfold sizeZ; lia|].
    intros row e Hr He. apply R in Hr as [_ Hr]. apply Hr. exact He.
  Qed.
  Lemma insert_len (x : T) l : length (insert_sorted x l) = S (length l).
  Proof. induction l as [|y r IH]; cbn; [reflexivity|]. destruct (nltb x y); cbn; [reflexivity|]. now rewrite IH. Qed.
  Lemma sort_len (l : list T) : length (sort l) = length l.
  Proof. unfold sort. induction l as [|y r IH]; cbn; [reflexivity|]. now rewrite insert_len, IH. Qed.
  Lemma iso_len n : forall mu dmu : T, length (iso_angles n mu dmu) = n.
  Proof. induction n; intros; cbn; [reflexivity|]. now rewrite IHn. Qed.
  Lemma read_entries_shape a nmu : forall k l es, read_entries k a l nmu = Ok es -> length es = k /\ ((0 < k)%nat -> 0 < nmu) /\ forall e, In e es -> sizeZ (snd e) = nmu.
  Proof.
    induction k as [|k IH]; intros l es H; cbn [read_entries] in H; [injection H as <-; split; [reflexivity|split; [lia|intros ? []]]|].
    apply bind_ok in H as (E & _ & H). apply bind_ok in H as (p & _ & H). apply bind_ok in H as (c & _ & H). apply bind_ok in H as (mu0 & EM & H). apply xss_vec_len in EM as [SM SN].
    cbv zeta in H. set (mu := if is_sorted mu0 then mu0 else sort mu0) in H.
    assert (SMu : sizeZ mu = nmu) by (unfold mu; destruct (is_sorted mu0); [exact SM|]; unfold sizeZ in *; rewrite sort_len; exact SM).
    apply bind_ok in H as (m0 & E0 & H). unfold frontR in E0. apply atZ_inv in E0 as [S0 _]. destruct (nltb m0 _); [discriminate|].
    apply bind_ok in H as (mn & En & H). destruct (nltb _ mn); [discriminate|]. apply bind_ok in H as (rest & ER & H). injection H as <-.
    apply IH in ER as (L & P & R). split; [cbn; lia|]. split; [lia|]. intros e [<-|He]; [exact SMu|apply R; exact He].
  Qed.
  Lemma mapR_len {A B} (f : A -> res B) : forall l l', mapR f l = Ok l' -> length l' = length l.
  Proof.
    induction l as [|x r IH]; intros l' H; cbn in H; [injection H as <-; reflexivity|].
    apply bind_ok in H as (y & _ & H). apply bind_ok in H as (ys & E & H). injection H as <-. cbn. f_equal. apply IH, E.
  Qed.
  Lemma make_ctable_shapeT a l Noe nmu t : 0 <= nmu -> make_ctable a l Noe nmu = Ok t -> shape_ctab nmu t /\ 0 < nmu.
  Proof.
    intros Hnmu. unfold make_ctable. intros M. apply bind_ok in M as (es0 & EE & M). apply read_entries_shape in EE as (L & P & RR).
    set (first := match es0 with (_, _, c0, _) :: _ => nltb (nofZ 0) c0 | [] => false end) in M. cbv zeta in M.
    set (es := if first then _ :: es0 else es0) in M.
    apply bind_ok in M as (? & _ & M). apply bind_ok in M as (e0 & E0 & M). unfold frontR in E0. apply atZ_inv in E0 as [S0 _].
    destruct (nltb e0 _); [discriminate|]. apply bind_ok in M as (? & _ & M). apply bind_ok in M as (pdf & EP & M). injection M as <-.
    apply mapR_len in EP. rewrite map_length in EP. unfold sizeZ in S0. rewrite map_length in S0.
    assert (P0 : 0 < nmu).
    { apply P. destruct es0 as [|e es0']; [|cbn in L; lia]. unfold es, first in S0. cbn in S0. lia. }
    split; [|exact P0]. unfold shape_ctab, sizeZ. cbn [ct_energy ct_pdf ct_cdf ct_cos]. rewrite !map_length. split; [lia|]. split; [lia|]. split; [lia|]. split; [lia|].
    intros r Hr. apply in_map_iff in Hr as (e & <- & He). unfold es in He. destruct first; [destruct He as [<-|He]; [cbn [snd]; rewrite iso_len; lia|]|]; apply RR, He.
  Qed.
  Lemma make_ctables_shapeT a nmu : 0 <= nmu -> forall locs noes ts, make_ctables a locs noes nmu = Ok ts ->
    length ts = Nat.min (length locs) (length noes) /\ (ts <> [] -> 0 < nmu) /\ forall t, In t ts -> shape_ctab nmu t.
  Proof.
    intros Hn. induction locs as [|l ls IH]; intros noes ts H; [injection H as <-; split; [reflexivity|split; [congruence|intros ? []]]|].
    destruct noes as [|n ns]; [injection H as <-; split; [reflexivity|split; [congruence|intros ? []]]|].
    cbn [make_ctables] in H. apply bind_ok in H as (t & ET & H). apply bind_ok in H as (ts' & ER & H). injection H as <-. apply IH in ER as (L & P & R).
    apply make_ctable_shapeT in ET as [S P0]; [|exact Hn]. split; [cbn; lia|]. split; [auto|]. intros u [<-|Hu]; auto.
  Qed.
  Lemma zseq_len : forall n i, length (zseq i n) = n.
  Proof. intros. unfold zseq. now rewrite map_length, seq_length. Qed.
  Lemma xss_vec_u32_len (a : ace T) i n v : xss_vec_u32 a i n = Ok v -> length v = Z.to_nat n.
  Proof. unfold xss_vec_u32. intros H. apply mapR_len in H. rewrite zseq_len in H. exact H. Qed.
  Lemma make_cedc_shapeT a u d : make_cedc a u = Ok d -> 0 < sizeZ (ce_in d) -> shape_cont d.
  Proof.
    unfold make_cedc. intros M Q. apply bind_ok in M as (? & G0 & M). apply bind_ok in M as (Ne & EN & M). apply bind_ok in M as (en & E1 & M). apply xss_vec_len in E1 as [SE SN].
    apply bind_ok in M as (? & G1 & M). apply bind_ok in M as (locs & EL & M). apply bind_ok in M as (noes & EO & M). apply bind_ok in M as (ts & ET & M). injection M as <-.
    cbn [ce_in] in Q. pose proof (wrap_range (nxs a 2 - 1)) as W. apply make_ctables_shapeT in ET as (L & P & R); [|lia]. apply xss_vec_u32_len in EL, EO.
    unfold shape_cont. cbn [ce_nmu ce_tables ce_in]. unfold sizeZ in *. split; [split; [|lia]|split; [lia|exact R]]. apply P. intros ->. cbn in L. lia.
  Qed.

  Lemma coh_safe c E ds : shape_coh c -> 0 < sizeZ (c_edges c) -> (1 <= length ds)%nat -> exists r rest, coh_sample c E ds = Ok (r, rest).
  Proof.
    intros S P L. destruct ds as [|xi ds]; [cbn in L; lia|]. unfold coh_sample. replace (sizeZ (c_edges c) =? 0) with false by lia.
    unfold rbind at 1. destruct (atZ_ok (c_edges c) 0) as [e0 E0]; [lia|]. unfold frontR. rewrite E0. cbn [rlift bind].
    destruct (nltb e0 E) eqn:C; [|eexists _, _; reflexivity].
    unfold rbind at 1. destruct (lower_bound_range_any (c_edges c) E) as (k & -> & K & K1). cbn [rlift bind].
    assert (k <> 0). { intros ->. destruct (K1 P eq_refl) as (a & A & B). rewrite E0 in A. injection A as ->. congruence. }
    unfold rbind at 1. cbn [draw]. unfold rbind at 1. destruct (atZ_ok (c_sum c) (k - 1)) as [s Hs]; [unfold shape_coh in S; lia|]. rewrite Hs. cbn [rlift bind].
    unfold rbind at 1. unfold lower_bound_range. unfold shape_coh in S.
    destruct (search_range (c_sum c) (nmul xi s) (Datatypes.S (length (c_sum c))) 0 (k - 1 - 0)) as (q & -> & Q & _); try (unfold sizeZ in *; lia). cbn [rlift bind].
    unfold rbind at 1. destruct (atZ_ok (c_edges c) q) as [eb ->]; [lia|]. cbn [rlift bind]. eexists _, _. reflexivity.
  Qed.

  Lemma lerp_ok row1 row2 (f : T) k n : sizeZ row1 = n -> sizeZ row2 = n -> 0 <= k < n -> exists v, lerp_at row1 row2 f k = Ok v.
  Proof. intros S1 S2 K. unfold lerp_at. destruct (atZ_ok row1 k) as [a ->]; [lia|]. destruct (atZ_ok row2 k) as [b ->]; [lia|]. cbn [bind]. eauto. Qed.
  Lemma smear_safe row1 row2 (f : T) k n xi ds : sizeZ row1 = n -> sizeZ row2 = n -> 0 <= k < n -> n < 2 ^ 32 -> exists mu, smear row1 row2 f k n (xi :: ds) = Ok (mu, ds).
  Proof.
    intros S1 S2 K W. unfold smear. unfold rbind at 1. destruct (lerp_ok row1 row2 f k n S1 S2 K) as [m ->]. cbn [rlift bind].
    replace (wrap32 (n - 1)) with (n - 1) by (unfold wrap32; rewrite Z.mod_small; lia).
    unfold rbind at 1. destruct (Z.eqb_spec k 0); [|destruct (lerp_ok row1 row2 f (k - 1) n S1 S2 ltac:(lia)) as [m1 ->]]; cbn [rlift bind];
    (unfold rbind at 1; destruct (Z.eqb_spec k (n - 1)); [|destruct (lerp_ok row1 row2 f (k + 1) n S1 S2 ltac:(lia)) as [m2 ->]]; cbn [rlift bind]; eexists; reflexivity).
  Qed.
  (** picking a cell with a draw *)
  Variable U : T -> Prop.
  Hypothesis pick : forall n x, 1 <= n < 2 ^ 32 -> U x -> exists k, trunc_u32 (nmul (nofZ n) x) = Ok k /\ 0 <= k < n.
  Hypothesis pick2 : forall n x, 6 <= n < 2 ^ 32 -> U x -> exists k, trunc_u32 (nadd (nmul (nofZ (n - 4)) x) (nofZ 2)) = Ok k /\ 0 <= k < n.

  Lemma inco_safe d E ds : shape_inco d -> 2 <= sizeZ (ie_in d) -> Forall U ds -> (2 <= length ds)%nat -> exists r rest, inco_sample d E ds = Ok (r, rest).
  Proof.
    intros (S1 & S2 & S3) P F L. destruct ds as [|x [|xi ds]]; cbn in L; try lia. inversion F as [|? ? Ux F']; subst.
    unfold inco_sample. replace (sizeZ (ie_in d) =? 0) with false by lia. unfold rbind at 1. destruct (select_any (ie_in d) E P) as (l & f & -> & L0 & L1). cbn [rlift bind].
    unfold rbind at 1. cbn [draw]. unfold rbind at 1. destruct (pick (ie_nmu d) x ltac:(lia) Ux) as (k & -> & K). cbn [rlift bind].
    unfold rbind at 1. destruct (atZ_ok (ie_cos d) l) as [r1 R1]; [lia|]. rewrite R1. cbn [rlift bind].
    unfold rbind at 1. destruct (atZ_ok (ie_cos d) (l + 1)) as [r2 R2]; [lia|]. rewrite R2. cbn [rlift bind].
    unfold rbind at 1. destruct (smear_safe r1 r2 f k (ie_nmu d) xi ds) as [mu ->]; auto; try lia; [apply S3; eauto using atZ_In|apply S3; eauto using atZ_In|].
    eexists _, _. reflexivity.
  Qed.

  Lemma dce_index_safe d ds : shape_dce d -> Forall U ds -> (2 <= length ds)%nat -> exists j rest, dce_index d ds = Ok (j, rest) /\ 0 <= j < d_noe d.
  Proof.
    intros (S1 & S2 & S3 & _) F L. destruct ds as [|x [|y ds]]; cbn in L; try lia. inversion F as [|? ? Ux F']; subst. inversion F' as [|? ? Uy F'']; subst.
    unfold dce_index. destruct (d_skewed d); cbn [negb].
    - specialize (S3 eq_refl). cbv zeta. unfold rbind at 1. cbn [draw].
      assert (W : forall k, 0 <= k <= d_noe d -> wrap32 (d_noe d - k) = d_noe d - k) by (intros; unfold wrap32; rewrite Z.mod_small; lia). rewrite !W by lia.
      match goal with |- context [if ?b then _ else _] => destruct b end.
      + unfold rbind at 1. cbn [draw]. destruct (pick2 (d_noe d) y ltac:(lia) Uy) as (k & -> & K). cbn [rlift bind]. eexists _, _. split; [reflexivity|exact K].
      + repeat match goal with |- context [if ?b then _ else _] => destruct b end; eexists _, _; (split; [reflexivity|lia]).
    - unfold rbind at 1. cbn [draw]. destruct (pick (d_noe d) x ltac:(lia) Ux) as (k & -> & K). cbn [rlift bind]. eexists _, _. split; [reflexivity|exact K].
  Qed.
  Lemma dce_at_safe d row j k : shape_dce d -> In row (d_out d) -> 0 <= j < d_noe d -> 0 <= k < d_nmu d -> exists p, dce_at row j k = Ok p.
  Proof.
    intros (_ & _ & _ & _ & _ & S1 & S2) I J K. unfold dce_at. destruct (atZ_ok row j) as [e He]; [rewrite (S1 _ I); exact J|]. rewrite He. cbn [bind].
    destruct (atZ_ok (snd e) k) as [m ->]; [rewrite (S2 row e I (atZ_In _ _ _ He)); exact K|]. cbn [bind]. eauto.
  Qed.
  Lemma dce_safe d E ds : shape_dce d -> Forall U ds -> (3 <= length ds)%nat -> exists r rest, dce_sample d E ds = Ok (r, rest).
  Proof.
    intros V F L. destruct ds as [|x ds]; cbn in L; [lia|]. inversion F as [|? ? Ux F']; subst. pose proof V as (S1 & S2 & S3 & S4 & S5 & _).
    unfold dce_sample. unfold rbind at 1. cbn [draw]. unfold rbind at 1. destruct (pick (d_nmu d) x ltac:(lia) Ux) as (k & -> & K). cbn [rlift bind].
    unfold rbind at 1. destruct (dce_index_safe d ds V F' ltac:(lia)) as (j & rest & -> & J).
    unfold rbind at 1. destruct (lower_bound_range_any (d_in d) E) as (i & -> & I & _). cbn [rlift bind].
    destruct (Z.eqb_spec i 0).
    { unfold rbind. unfold frontR. destruct (atZ_ok (d_out d) 0) as [row R]; [lia|]. rewrite R. cbn [rlift bind].
      destruct (dce_at_safe d row j k V (atZ_In _ _ _ R) J K) as [p ->]. cbn [rlift bind]. eauto. }
    destruct (Z.eqb_spec i (sizeZ (d_in d))).
    { unfold rbind. unfold backR. destruct (atZ_ok (d_out d) (sizeZ (d_out d) - 1)) as [row R]; [lia|]. rewrite R. cbn [rlift bind].
      destruct (dce_at_safe d row j k V (atZ_In _ _ _ R) J K) as [p ->]. cbn [rlift bind]. eauto. }
    cbv zeta. unfold rbind at 1. destruct (atZ_ok (d_in d) (i - 1)) as [e1 ->]; [lia|]. cbn [rlift bind]. unfold rbind at 1. destruct (atZ_ok (d_in d) (i - 1 + 1)) as [e2 ->]; [lia|]. cbn [rlift bind].
    unfold rbind at 1. destruct (atZ_ok (d_out d) (i - 1)) as [r1 R1]; [lia|]. rewrite R1. cbn [rlift bind]. unfold rbind at 1. destruct (atZ_ok (d_out d) (i - 1 + 1)) as [r2 R2]; [lia|]. rewrite R2. cbn [rlift bind].
    unfold rbind at 1. destruct (dce_at_safe d r1 j k V (atZ_In _ _ _ R1) J K) as [p1 ->]. cbn [rlift bind]. unfold rbind at 1. destruct (dce_at_safe d r2 j k V (atZ_In _ _ _ R2) J K) as [p2 ->]. cbn [rlift bind].
    eexists _, _. reflexivity.
  Qed.

  (** the result comes from the entries (j, k) of one row, or of two neighbouring rows *)
  Definition from_entry (d : dce T) (E : T) (j k : Z) (r : T * T) : Prop :=
    exists i1 i2 row1 row2 p1 p2 m1 m2, atZ (d_out d) i1 = Ok row1 /\ atZ (d_out d) i2 = Ok row2 /\ atZ row1 j = Ok p1 /\ atZ row2 j = Ok p2 /\ atZ (snd p1) k = Ok m1 /\ atZ (snd p2) k = Ok m2 /\
      ((i1 = i2 /\ (i1 = 0 \/ i1 = sizeZ (d_in d) - 1) /\ r = (m1, fst p1)) \/
       (exists e1 e2, i2 = i1 + 1 /\ atZ (d_in d) i1 = Ok e1 /\ atZ (d_in d) i2 = Ok e2 /\ let f := ndiv (nsub E e1) (nsub e2 e1) in
          r = (clamp_mu (nadd m1 (nmul f (nsub m2 m1))), nadd (fst p1) (nmul f (nsub (fst p2) (fst p1)))))).
  Lemma dce_entry d E x y ds k j : shape_dce d -> d_skewed d = false -> trunc_u32 (nmul (nofZ (d_nmu d)) x) = Ok k -> 0 <= k < d_nmu d -> trunc_u32 (nmul (nofZ (d_noe d)) y) = Ok j -> 0 <= j < d_noe d ->
    exists r, dce_sample d E (x :: y :: ds) = Ok (r, ds) /\ from_entry d E j k r.
  Proof.
    intros V Q Ek K Ej J. pose proof V as (S1 & S2 & S3 & S4 & S5 & S6 & S7).
    unfold dce_sample. unfold rbind at 1. cbn [draw]. unfold rbind at 1. rewrite Ek. cbn [rlift bind]. unfold rbind at 1. unfold dce_index. rewrite Q. cbn [negb]. unfold rbind at 1. cbn [draw]. rewrite Ej. cbn [rlift bind].
    unfold rbind at 1. destruct (lower_bound_range_any (d_in d) E) as (i & -> & I & _). cbn [rlift bind].
    assert (A : forall i row, atZ (d_out d) i = Ok row -> exists p m, atZ row j = Ok p /\ atZ (snd p) k = Ok m /\ dce_at row j k = Ok (m, fst p)).
    { intros q row Hr. pose proof (atZ_In _ _ _ Hr) as Ir. destruct (atZ_ok row j) as [p Hp]; [rewrite (S6 _ Ir); exact J|].
      destruct (atZ_ok (snd p) k) as [m Hm]; [rewrite (S7 row p Ir (atZ_In _ _ _ Hp)); exact K|]. exists p, m. unfold dce_at. rewrite Hp. cbn [bind]. rewrite Hm. auto. }
    destruct (Z.eqb_spec i 0).
    { unfold rbind. unfold frontR. destruct (atZ_ok (d_out d) 0) as [row R]; [lia|]. rewrite R. cbn [rlift bind]. destruct (A _ _ R) as (p & m & A1 & A2 & ->). cbn [rlift bind].
      eexists. split; [reflexivity|]. exists 0, 0, row, row, p, p, m, m. repeat (split; [assumption|]). left. auto. }
    destruct (Z.eqb_spec i (sizeZ (d_in d))).
    { unfold rbind. unfold backR. destruct (atZ_ok (d_out d) (sizeZ (d_out d) - 1)) as [row R]; [lia|]. rewrite R. cbn [rlift bind]. destruct (A _ _ R) as (p & m & A1 & A2 & ->). cbn [rlift bind].
      eexists. split; [reflexivity|]. eexists _, _, row, row, p, p, m, m. split; [exact R|]. split; [exact R|]. repeat (split; [assumption|]). left. split; [reflexivity|]. split; [right; lia|reflexivity]. }
    cbv zeta. unfold rbind at 1. destruct (atZ_ok (d_in d) (i - 1)) as [e1 Q1]; [lia|]. rewrite Q1. cbn [rlift bind]. unfold rbind at 1. destruct (atZ_ok (d_in d) (i - 1 + 1)) as [e2 Q2]; [lia|]. rewrite Q2. cbn [rlift bind].
    unfold rbind at 1. destruct (atZ_ok (d_out d) (i - 1)) as [r1 R1]; [lia|]. rewrite R1. cbn [rlift bind]. unfold rbind at 1. destruct (atZ_ok (d_out d) (i - 1 + 1)) as [r2 R2]; [lia|]. rewrite R2. cbn [rlift bind].
    destruct (A _ _ R1) as (p1 & m1 & A1 & A2 & A3). destruct (A _ _ R2) as (p2 & m2 & B1 & B2 & B3).
    unfold rbind at 1. rewrite A3. cbn [rlift bind]. unfold rbind at 1. rewrite B3. cbn [rlift bind fst snd].
    eexists. split; [reflexivity|]. exists (i - 1), (i - 1 + 1), r1, r2, p1, p2, m1, m2. repeat (split; [assumption|]). right. exists e1, e2. auto.
  Qed.

  Lemma ct_sample_safe nmu t xi : shape_ctab nmu t -> 2 <= sizeZ (ct_energy t) -> exists h j, ct_sample t xi = Ok (h, j) /\ 0 <= j /\ j + 1 < sizeZ (ct_energy t).
  Proof.
    intros (S0 & S1 & S2 & S3 & S4) P. unfold ct_sample. destruct (lower_bound_range_any (ct_cdf t) xi) as (k & -> & K & _). cbn [bind].
    set (l := if k =? 0 then 0 else if k =? sizeZ (ct_cdf t) then sizeZ (ct_energy t) - 2 else k - 1).
    assert (Lr : 0 <= l /\ l + 1 < sizeZ (ct_energy t)) by (unfold l; destruct (Z.eqb_spec k 0); [lia|]; destruct (Z.eqb_spec k (sizeZ (ct_cdf t))); lia). clearbody l.
    destruct (atZ_ok (ct_pdf t) l) as [p1 ->]; [lia|]. destruct (atZ_ok (ct_pdf t) (l + 1)) as [p2 ->]; [lia|]. destruct (atZ_ok (ct_energy t) l) as [e1 ->]; [lia|]. destruct (atZ_ok (ct_cdf t) l) as [c1 ->]; [lia|]. cbn [bind].
    destruct (neqb p1 p2); [eexists _, _; split; [reflexivity|exact Lr]|]. destruct (atZ_ok (ct_energy t) (l + 1)) as [e2 ->]; [lia|]. cbn [bind]. eexists _, _. split; [reflexivity|exact Lr].
  Qed.
  Lemma ct_cosine_safe nmu t xi j x z ds : shape_ctab nmu t -> 0 < nmu < 2 ^ 32 -> 0 <= j -> j + 1 < sizeZ (ct_energy t) -> U x -> exists mu, ct_cosine t nmu xi j (x :: z :: ds) = Ok (mu, ds).
  Proof.
    intros (S0 & S1 & S2 & S3 & S4) W J0 J1 Ux. unfold ct_cosine. unfold rbind at 1. cbn [draw]. unfold rbind at 1. destruct (pick nmu x ltac:(lia) Ux) as (k & -> & K). cbn [rlift bind].
    unfold rbind at 1. destruct (atZ_ok (ct_cdf t) j) as [c1 ->]; [lia|]. cbn [rlift bind]. unfold rbind at 1. destruct (atZ_ok (ct_cdf t) (j + 1)) as [c2 ->]; [lia|]. cbn [rlift bind].
    unfold rbind at 1. destruct (atZ_ok (ct_cos t) j) as [r1 R1]; [lia|]. rewrite R1. cbn [rlift bind]. unfold rbind at 1. destruct (atZ_ok (ct_cos t) (j + 1)) as [r2 R2]; [lia|]. rewrite R2. cbn [rlift bind].
    unfold rbind at 1. destruct (smear_safe r1 r2 (ndiv (nsub xi c1) (nsub c2 c1)) k nmu z ds) as [mu ->]; auto; try lia; [apply S4; eauto using atZ_In|apply S4; eauto using atZ_In|].
    eexists. reflexivity.
  Qed.
  Lemma cedc_safe d E ds : shape_cont d -> 2 <= sizeZ (ce_in d) -> (forall t, In t (ce_tables d) -> 2 <= sizeZ (ct_energy t)) -> Forall U ds -> (4 <= length ds)%nat ->
    exists r rest, cedc_sample d E ds = Ok (r, rest).
  Proof.
    intros (S1 & S2 & S3) P Q F L. destruct ds as [|xi [|y [|x [|z ds]]]]; cbn in L; try lia.
    inversion F as [|? ? U1 F1]; subst. inversion F1 as [|? ? U2 F2]; subst. inversion F2 as [|? ? U3 F3]; subst.
    unfold cedc_sample. destruct (select_any (ce_in d) E P) as (l & f & Es & L0 & L1). destruct (ce_unit d); cbn [negb].
    - unfold cedc_sample_unit. unfold rbind at 1. rewrite Es. cbn [rlift bind]. unfold rbind at 1.
      destruct (atZ_ok (ce_tables d) l) as [t1 T1]; [lia|]. destruct (atZ_ok (ce_tables d) (l + 1)) as [t2 T2]; [lia|].
      pose proof (S3 _ (atZ_In _ _ _ T1)) as V1. pose proof (S3 _ (atZ_In _ _ _ T2)) as V2. pose proof (Q _ (atZ_In _ _ _ T1)) as Q1. pose proof (Q _ (atZ_In _ _ _ T2)) as Q2.
      unfold limits. rewrite T1, T2. cbn [bind]. unfold ct_min, ct_max, frontR, backR.
      destruct (atZ_ok (ct_energy t1) 0) as [a1 ->]; [lia|]. destruct (atZ_ok (ct_energy t2) 0) as [a2 ->]; [lia|].
      destruct (atZ_ok (ct_energy t1) (sizeZ (ct_energy t1) - 1)) as [b1 ->]; [lia|]. destruct (atZ_ok (ct_energy t2) (sizeZ (ct_energy t2) - 1)) as [b2 ->]; [lia|].
      cbn [rlift bind u_t1 u_a1 u_b1 u_t2 u_a2 u_b2]. unfold rbind at 1. cbn [draw]. unfold rbind at 1. cbn [draw].
      assert (G : forall t a b, shape_ctab (ce_nmu d) t -> 2 <= sizeZ (ct_energy t) -> exists r rest, (let '(t, a, b) := (t, a, b) in
         rlet! hj := rlift (ct_sample t xi) in let '(h, j) := hj in
         let Eo := unit_base (nadd a1 (nmul f (nsub a2 a1))) (nadd b1 (nmul f (nsub b2 b1))) h a b in
         rlet! mu := ct_cosine t (ce_nmu d) xi j in rret (mu, Eo)) (x :: z :: ds) = Ok (r, rest)).
      { intros t a b Vt Qt. destruct (ct_sample_safe (ce_nmu d) t xi Vt Qt) as (h & j & Ej & J0 & J1). cbv zeta beta iota. unfold rbind at 1. rewrite Ej. cbn [rlift bind].
        unfold rbind at 1. destruct (ct_cosine_safe (ce_nmu d) t xi j x z ds Vt S1 J0 J1 U3) as [mu ->]. eexists _, _. reflexivity. }
      match goal with |- context [if ?b then _ else _] => destruct b end; apply G; assumption.
    - unfold cedc_sample_nearest. unfold rbind at 1. rewrite Es. cbn [rlift bind]. cbv zeta.
      set (i := if nltb (nlit 1 2) f then l + 1 else l). assert (Hi : 0 <= i < sizeZ (ce_in d)) by (unfold i; destruct (nltb _ f); lia). clearbody i.
      unfold rbind at 1. cbn [draw]. unfold rbind at 1. destruct (atZ_ok (ce_tables d) i) as [t Ht]; [lia|]. rewrite Ht. cbn [rlift bind].
      pose proof (S3 _ (atZ_In _ _ _ Ht)) as Vt. pose proof (Q _ (atZ_In _ _ _ Ht)) as Qt. destruct (ct_sample_safe (ce_nmu d) t xi Vt Qt) as (h & j & Ej & J0 & J1).
      unfold rbind at 1. rewrite Ej. cbn [rlift bind]. unfold rbind at 1. destruct (atZ_ok (ce_in d) i) as [e ->]; [lia|]. cbn [rlift bind].
      unfold rbind at 1. destruct (ct_cosine_safe (ce_nmu d) t xi j y x (z :: ds) Vt S1 J0 J1 U2) as [mu ->]. eexists _, _. reflexivity.
  Qed.
End Safe.
