(** * Thermal scattering: tables of cross sections, the scattering law, witnesses in binary64 *)
From Coq Require Import Reals Lra Lia.
From Verif Require Import Base NumR NumF L_Search L_SearchR M_Interp M_Tab1D S_Tab1D L_Tab1D L_Tab1DR L_Tab1DP L_Linearize2 M_Grid M_PC S_PC L_Angle M_OutE S_OutE L_OutE M_Ace M_Thermal S_Thermal L_PC L_Ace L_Grid L_Neutron2 L_Thermal.
From Coq Require Import ZifyBool ZifyNat.
Local Open Scope R_scope.

Lemma tab1_lin x y t : make_tab1 LinLin x y = Ok t -> (0 < sizeZ x < 2 ^ 32)%Z -> strictly_increasing x -> forall E, exists w, tab_eval t E = Ok w /\ lin_table x y E w.
Proof.
  intros M S SI E. rewrite make_tab1_eq in M by lia. assert (V : valid_breakpoints [sizeZ x] (sizeZ x)) by (split; [discriminate|cbn; split; lia]).
  destruct (tab_value _ _ _ _ _ V ltac:(lia) M) as (A & _ & C). pose proof (tab_value_last _ _ _ _ _ V ltac:(lia) M SI) as B.
  destruct (Rle_dec E (getR x 0)) as [L|L]; [exists (getR y 0); split; [apply A, L|left; auto]|].
  destruct (Rle_dec (getR x (sizeZ x - 1)) E) as [H|H]; [eexists; split; [apply B, H|right; left; auto]|].
  destruct (C E ltac:(lra)) as (w & W & I). exists w. split; [exact W|]. right; right.
  assert (N2 : (1 < sizeZ x)%Z). { destruct (Z_lt_dec 1 (sizeZ x)); [assumption|]. replace (sizeZ x - 1)%Z with 0%Z in H by lia. lra. }
  destruct I as [(j & J1 & J2 & ->)|(j & i & J1 & J2 & J3 & J4 & ->)].
  - assert (j <> 0)%Z by (intros ->; lra). exists (j - 1)%Z. replace (j - 1 + 1)%Z with j by lia. split; [lia|]. split; [lia|].
    assert (getR x (j - 1) < getR x j) by (apply SI; lia). split; [lra|]. rewrite J2. unfold mix. field. lra.
  - exists j. split; [lia|]. split; [lia|]. split; [exact J3|]. cbn [segment_law] in J4. replace (j + 1 <? sizeZ x)%Z with true in J4 by lia. injection J4 as <-.
    cbn [interpolate]. unfold linlin_interpolate, mix. rch. field. lra.
Qed.
Lemma lin_table_nonneg x y E w : lin_table x y E w -> sizeZ y = sizeZ x -> (0 < sizeZ x)%Z -> (forall v, In v y -> 0 <= v) -> 0 <= w.
Proof.
  intros L S P N. assert (Q : forall i, (0 <= i < sizeZ x)%Z -> 0 <= getR y i) by (intros; apply N, getR_In; lia).
  destruct L as [[_ ->]|[[_ ->]|(j & J1 & J2 & J3 & ->)]]; [apply Q; lia|apply Q; lia|].
  pose proof (Q j ltac:(lia)). pose proof (Q (j + 1)%Z ltac:(lia)). set (f := (E - getR x j) / (getR x (j + 1) - getR x j)).
  assert (D : f * (getR x (j + 1) - getR x j) = E - getR x j) by (unfold f; field; lra). assert (0 <= f <= 1) by nra. unfold mix. nra.
Qed.
(** the table of the absent incoherent elastic part *)
Lemma no_inco_tab : exists t, @make_tab1 R NumR Histogram [0; 100] [0; 0] = Ok t /\ forall E, tab_eval t E = Ok 0.
Proof.
  assert (S : @is_sorted R NumR [0; 100] = true).
  { apply is_sorted_increasing. intros i j Hi Hij Hj. change (sizeZ [0%R; 100%R]) with 2%Z in Hj. assert (i = 0 \/ i = 1)%Z as [-> | ->] by lia; assert (j = 0 \/ j = 1)%Z as [-> | ->] by lia; try (exfalso; lia);
    change (getR [0; 100] 0) with 0; change (getR [0; 100] 1) with 100; lra. }
  assert (A : @has_adjacent_equal R NumR [0; 100] = false).
  { unfold has_adjacent_equal. rch. destruct (Reqb_spec 0 100); [lra|reflexivity]. }
  unfold make_tab1. rewrite S. cbn [length Nat.eqb guard bind]. change (sizeZ [0%R; 100%R] mod 4294967296)%Z with 2%Z. change (slice [0; 100] 0 2) with (Ok [0; 100]). change (slice [0; 0] 0 2) with (Ok [0; 0]). cbn [bind].
  unfold make_range. cbn [length Nat.eqb guard bind negb]. rewrite S. cbn [guard bind]. cbn [verify_x_grid verify_y_grid bind]. rewrite A. cbn [negb guard bind].
  eexists. split; [reflexivity|]. intros E.
  assert (M : @make_tab R NumR [sizeZ [0; 100]] [Histogram] [0; 100] [0; 0] = Ok (mkTab [2%Z] [Histogram] [0; 100] [0; 0] [mkRange Histogram [0; 100] [0; 0]])).
  { rewrite <- make_tab1_eq by (cbn; lia). unfold make_tab1. rewrite S. cbn [length Nat.eqb guard bind]. change (sizeZ [0%R; 100%R] mod 4294967296)%Z with 2%Z.
    change (slice [0; 100] 0 2) with (Ok [0; 100]). change (slice [0; 0] 0 2) with (Ok [0; 0]). cbn [bind]. unfold make_range. cbn [length Nat.eqb guard bind negb]. rewrite S. cbn [guard bind verify_x_grid verify_y_grid]. rewrite A. reflexivity. }
  assert (V : valid_breakpoints [sizeZ [0; 100]] (sizeZ [0; 100])) by (split; [discriminate|cbn; split; lia]).
  assert (SI : strictly_increasing [0; 100]).
  { intros i j Hi Hij Hj. change (sizeZ [0%R; 100%R]) with 2%Z in Hj. assert (i = 0)%Z as -> by lia. assert (j = 1)%Z as -> by lia. change (getR [0; 100] 0) with 0; change (getR [0; 100] 1) with 100; lra. }
  destruct (tab_value _ _ _ _ _ V ltac:(cbn; lia) M) as (AA & _ & C). pose proof (tab_value_last _ _ _ _ _ V ltac:(cbn; lia) M SI) as B.
  assert (Y : forall j, getR [0; 0] j = 0) by (intros j; unfold getR; destruct (Z.to_nat j) as [|[|[|]]]; reflexivity).
  destruct (Rle_dec E (getR [0; 100] 0)) as [L|L]; [rewrite (AA E L), Y; reflexivity|].
  destruct (Rle_dec (getR [0; 100] (sizeZ [0; 100] - 1)) E) as [H|H]; [rewrite (B E H), Y; reflexivity|].
  destruct (C E ltac:(lra)) as (w & W & I). rewrite W. f_equal. destruct I as [(j & _ & _ & ->)|(j & i & J1 & J2 & _ & J4 & ->)]; [apply Y|].
  cbn [segment_law] in J4. destruct (j + 1 <? _)%Z; [|discriminate]. injection J4 as <-. cbn [interpolate]. apply Y.
Qed.
Lemma make_inco_absent a : (nxs a 4 = 4 \/ jxs a 3 = 0)%Z -> exists d, make_inco a = Ok d /\ ie_in d = [] /\ forall E, inco_xs d E = Ok 0.
Proof.
  intros H. destruct no_inco_tab as (t & Et & Z0). exists (mkInco t 0%Z [] []). unfold make_inco. replace ((nxs a 4 =? 4) || (jxs a 3 =? 0))%Z%bool with true by lia. rch.
  rewrite Et. cbn [bind]. split; [reflexivity|]. split; [reflexivity|]. intros E. apply Z0.
Qed.
Lemma make_coh_absent (a : ace R) : nxs a 4 <> 4%Z -> make_coh a = Ok (mkCoh [] []).
Proof. intros H. unfold make_coh. replace (nxs a 4 =? 4)%Z with false by lia. reflexivity. Qed.
Lemma make_coh_no_block (a : ace R) : nxs a 4 = 4%Z -> jxs a 3 = 0%Z -> make_coh a = UB.
Proof. intros H J. unfold make_coh. rewrite H, J. cbn [Z.eqb]. unfold xss_u32, xss. rewrite atZ_out by lia. reflexivity. Qed.
Lemma make_coh_nonempty a c : make_coh a = Ok c -> nxs a 4 = 4%Z -> (0 < sizeZ (c_edges c))%Z.
Proof.
  intros M H. unfold make_coh in M. rewrite H in M. cbn [Z.eqb] in M. apply bind_ok in M as (Ne & _ & M). apply bind_ok in M as (ed & _ & M). apply bind_ok in M as (su & _ & M).
  apply bind_ok in M as (? & _ & M). apply bind_ok in M as (e0 & E0 & M). destruct (nltb _ _); [discriminate|]. injection M as <-. apply atR_inv in E0 as [S0 _]. cbn [c_edges]. lia.
Qed.
Lemma coh_xs_total c E : valid_coh c -> exists w, coh_xs c E = Ok w.
Proof.
  intros V. destruct (Z.eq_dec (sizeZ (c_edges c)) 0) as [Z0|NZ]; [eexists; apply coh_xs_empty, Z0|]. assert (S : (0 < sizeZ (c_edges c))%Z) by (unfold sizeZ in *; lia).
  destruct (Rlt_dec E (getR (c_edges c) 0)) as [L|L]; [eexists; apply coh_xs_below; assumption|].
  destruct (Req_dec E (getR (c_edges c) 0)) as [->|Q]; [eexists; apply coh_xs_at_first; assumption|].
  destruct (Req_dec E (getR (c_edges c) (sizeZ (c_edges c) - 1))) as [->|Q2]; [|destruct (coh_xs_between c E V S ltac:(lra) Q2) as (l & _ & El); eauto].
  unfold coh_xs. replace (sizeZ (c_edges c) =? 0)%Z with false by lia. rewrite frontR_R, !backR_R by (rewrite ?(vc_size _ V); lia). cbn [bind]. rch.
  destruct (Rltb_spec (getR (c_edges c) (sizeZ (c_edges c) - 1)) (getR (c_edges c) (sizeZ (c_edges c) - 1))); [lra|]. rewrite andb_false_r. destruct (Rltb _ _); eexists; reflexivity.
Qed.
Lemma coh_xs_at_last c : valid_coh c -> (0 < sizeZ (c_edges c))%Z -> coh_xs c (getR (c_edges c) (sizeZ (c_edges c) - 1)) =
   Ok (getR (c_sum c) (sizeZ (c_edges c) - 1) / getR (c_edges c) (sizeZ (c_edges c) - 1)).
Proof.
  intros V S. unfold coh_xs. replace (sizeZ (c_edges c) =? 0)%Z with false by lia. rewrite frontR_R, !backR_R by (rewrite ?(vc_size _ V); lia). cbn [bind]. rch.
  destruct (Rltb_spec (getR (c_edges c) (sizeZ (c_edges c) - 1)) (getR (c_edges c) (sizeZ (c_edges c) - 1))); [lra|]. rewrite andb_false_r.
  destruct (Rltb_spec (getR (c_edges c) (sizeZ (c_edges c) - 1)) (getR (c_edges c) 0)) as [Q|Q].
  - assert (getR (c_edges c) 0 <= getR (c_edges c) (sizeZ (c_edges c) - 1)) by (apply (vc_edges _ V); lia). lra.
  - rewrite (vc_size _ V). reflexivity.
Qed.
(** ** the scattering law *)
Lemma u32_range (a : ace R) i n : xss_u32 a i = Ok n -> (0 <= n < 2 ^ 32)%Z.
Proof.
  unfold xss_u32. intros H. apply bind_ok in H as (x & _ & H). unfold trunc_u32 in H. destruct (nfloor x) as [k|]; [|discriminate].
  destruct (0 <=? k)%Z eqn:A; [destruct (k <? 2 ^ 32)%Z eqn:B; [injection H as <-; lia|discriminate]|destruct (nltb _ _); [injection H as <-; lia|discriminate]].
Qed.
Lemma make_inin_tab a u d : make_inin a u = Ok d -> exists x y, inel_tab a x y /\ t_x (ii_xs d) = x /\ make_tab1 LinLin x y = Ok (ii_xs d) /\ sizeZ y = sizeZ x /\ (sizeZ x < 2 ^ 32)%Z.
Proof.
  unfold make_inin. intros M. apply bind_ok in M as (Ne & EN & M). apply bind_ok in M as (x & EX & M). apply bind_ok in M as (y & EY & M). apply bind_ok in M as (t & ET & M).
  replace (jxs a 0 - 1 + 1)%Z with (jxs a 0) in * by lia. exists x, y. assert (T : ii_xs d = t).
  { destruct (_ || _)%bool; [apply bind_ok in M as (? & _ & M); injection M as <-; reflexivity|]. destruct (_ =? 2)%Z; [apply bind_ok in M as (? & _ & M); injection M as <-; reflexivity|discriminate]. }
  rewrite T. split; [exists Ne; auto|]. pose proof (make_tab1_data _ _ _ _ ET) as [T1 T2]. split; [exact T1|]. split; [exact ET|].
  apply u32_range in EN. destruct (xss_vec_size _ _ _ _ EX) as [SX _]. destruct (xss_vec_size _ _ _ _ EY) as [SY _]. lia.
Qed.
Lemma make_inco_tab a d : make_inco a = Ok d -> nxs a 4 <> 4%Z -> jxs a 3 <> 0%Z -> exists x y, inco_tab a x y /\ ie_in d = x /\ make_tab1 LinLin x y = Ok (ie_xs d) /\ sizeZ y = sizeZ x /\ (sizeZ x < 2 ^ 32)%Z /\ (forall v, In v y -> 0 <= v).
Proof.
  unfold make_inco. intros M N4 J3. replace ((nxs a 4 =? 4) || (jxs a 3 =? 0))%Z%bool with false in M by lia.
  apply bind_ok in M as (Ne & EN & M). apply bind_ok in M as (x & EX & M). apply bind_ok in M as (y & EY & M). apply bind_ok in M as (? & G & M). apply guard_ok in G.
  apply bind_ok in M as (t & ET & M). apply bind_ok in M as (rows & _ & M). injection M as <-. cbn [ie_in ie_xs]. replace (jxs a 3 - 1 + 1)%Z with (jxs a 3) in * by lia.
  exists x, y. split; [exists Ne; auto|]. split; [reflexivity|]. split; [exact ET|]. apply u32_range in EN. destruct (xss_vec_size _ _ _ _ EX) as [SX _]. destruct (xss_vec_size _ _ _ _ EY) as [SY _].
  split; [lia|]. split; [lia|]. intros v Hv. apply negb_true_iff in G. rch. destruct (Rlt_dec v 0) as [L|L]; [|lra]. exfalso. rewrite <- not_true_iff_false in G. apply G, existsb_exists. exists v. split; [exact Hv|]. apply Rltb_true, L.
Qed.
Lemma make_tsl_parts a u t : make_tsl a u = Ok t -> make_inin a u = Ok (t_inel t) /\ make_inco a = Ok (t_inc t) /\ make_coh a = Ok (t_coh t) /\
  t_zaid t = a_zaid a /\ t_awr t = a_awr a /\ t_temp t = a_temperature a /\
  (t_has_coh t = true <-> jxs a 3 <> 0%Z /\ nxs a 4 = 4%Z) /\ (t_has_inc t = true <-> jxs a 3 <> 0%Z /\ nxs a 4 <> 4%Z).
Proof.
  unfold make_tsl. intros M. apply bind_ok in M as (ii & EI & M).
  destruct (Z.eqb_spec (jxs a 3) 0) as [J|J]; cbn [negb] in M; [|destruct (Z.eqb_spec (nxs a 4) 4) as [Q|Q]];
    apply bind_ok in M as (c & EC & M); apply bind_ok in M as (i & EO & M); injection M as <-; cbn [t_inel t_inc t_coh t_zaid t_awr t_temp t_has_coh t_has_inc]; repeat (split; [assumption || reflexivity|]);
    split; split; intros; try discriminate; try tauto; auto.
Qed.
Lemma tsl_xs_spec a u t E : make_tsl a u = Ok t -> (0 < sizeZ (t_x (ii_xs (t_inel t))))%Z -> strictly_increasing (t_x (ii_xs (t_inel t))) ->
  (t_has_inc t = true -> (0 < sizeZ (ie_in (t_inc t)))%Z /\ strictly_increasing (ie_in (t_inc t))) ->
  exists x y s1 s2 s3, inel_tab a x y /\ lin_table x y E s1 /\ coh_xs (t_coh t) E = Ok s3 /\ tsl_xs t E = Ok (s1 + s2 + s3) /\
    (t_has_inc t = false -> s2 = 0) /\ (t_has_coh t = false -> s3 = 0) /\
    (t_has_inc t = true -> exists x' y', inco_tab a x' y' /\ lin_table x' y' E s2 /\ 0 <= s2).
Proof.
  intros M S1 I1 H2. destruct (make_tsl_parts a u t M) as (MI & MO & MC & _ & _ & _ & HC & HI).
  destruct (make_inin_tab a u _ MI) as (x & y & TX & TE & TT & SY & SX). rewrite TE in S1, I1.
  destruct (tab1_lin x y _ TT ltac:(lia) I1 E) as (s1 & E1 & L1).
  destruct (coh_xs_total (t_coh t) E (make_coh_valid _ _ MC)) as (s3 & E3).
  assert (P2 : exists s2, inco_xs (t_inc t) E = Ok s2 /\ (t_has_inc t = false -> s2 = 0) /\ (t_has_inc t = true -> exists x' y', inco_tab a x' y' /\ lin_table x' y' E s2 /\ 0 <= s2)).
  { destruct (t_has_inc t) eqn:Q.
    - destruct (proj1 HI eq_refl) as [J N4]. destruct (H2 eq_refl) as [SZ SI]. destruct (make_inco_tab a _ MO N4 J) as (x' & y' & TX' & TE' & TT' & SY' & SX' & NN). rewrite TE' in SZ, SI.
      destruct (tab1_lin x' y' _ TT' ltac:(lia) SI E) as (s2 & E2 & L2). exists s2. split; [exact E2|]. split; [discriminate|]. intros _. exists x', y'. split; [exact TX'|]. split; [exact L2|].
      eapply lin_table_nonneg; eauto.
    - destruct (make_inco_absent a) as (d & ED & _ & Z0).
      { destruct (Z.eq_dec (nxs a 4) 4); [auto|]. destruct (Z.eq_dec (jxs a 3) 0); [auto|]. assert (false = true) by (apply HI; auto). discriminate. }
      rewrite ED in MO. injection MO as <-. exists 0. split; [apply Z0|]. split; [auto|discriminate]. }
  destruct P2 as (s2 & E2 & Z2 & Q2). exists x, y, s1, s2, s3. split; [exact TX|]. split; [exact L1|]. split; [exact E3|]. split.
  { unfold tsl_xs, inin_xs. rewrite E1. cbn [bind]. rewrite E2. cbn [bind]. rewrite E3. reflexivity. }
  split; [exact Z2|]. split; [|exact Q2]. intros Q. destruct (Z.eq_dec (nxs a 4) 4) as [N4|N4].
  - destruct (Z.eq_dec (jxs a 3) 0) as [J|J]; [rewrite (make_coh_no_block a N4 J) in MC; discriminate|]. rewrite (proj2 HC (conj J N4)) in Q. discriminate.
  - rewrite (make_coh_absent a N4) in MC. assert (T : t_coh t = mkCoh [] []) by congruence. rewrite T in E3. rewrite coh_xs_empty in E3 by reflexivity. congruence.
Qed.
Lemma tsl_no_block_UB a u ii : make_inin a u = Ok ii -> nxs a 4 = 4%Z -> jxs a 3 = 0%Z -> make_tsl a u = UB.
Proof.
  intros MI N J. unfold make_tsl. rewrite MI. cbn [bind]. rewrite J. cbn [Z.eqb negb]. destruct (make_inco_absent a (or_introl N)) as (d & -> & _). cbn [bind]. rewrite (make_coh_no_block a N J). reflexivity.
Qed.

