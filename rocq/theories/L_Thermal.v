(** * Coherent elastic scattering, smeared cosines, incoherent elastic scattering, discrete tables *)
From Coq Require Import Reals Lra Lia.
From Verif Require Import Base NumR L_Search L_SearchR M_Interp M_Tab1D M_Grid M_PC S_PC L_PC L_Angle M_OutE S_OutE L_OutE M_Ace M_Thermal S_Thermal L_Ace L_Grid L_Neutron2.
Local Open Scope R_scope.
Ltac rch := change (@nltb R NumR) with Rltb in *; change (@nleb R NumR) with Rleb in *; change (@neqb R NumR) with Reqb in *;
  change (@nadd R NumR) with Rplus in *; change (@nsub R NumR) with Rminus in *; change (@nmul R NumR) with Rmult in *;
  change (@ndiv R NumR) with Rdiv in *; change (@nofZ R NumR) with IZR in *; change (@nopp R NumR) with Ropp in *.

Lemma trunc_bin n x : (0 < n < 2 ^ 32)%Z -> 0 <= x < 1 -> exists k, @trunc_u32 R NumR (IZR n * x) = Ok k /\ kth n x k.
Proof.
  intros Hn Hx. assert (N0 : 0 < IZR n) by (apply IZR_lt; lia). assert (B : 0 <= IZR n * x < IZR n) by nra.
  pose proof (Int_part_spec (IZR n * x)) as I. set (k := Int_part (IZR n * x)) in *.
  assert (K : (0 <= k < n)%Z).
  { split; [apply Z.lt_succ_r; apply lt_IZR; rewrite succ_IZR; lra|apply lt_IZR; lra]. }
  exists k. split; [|split; [exact K|lra]]. unfold trunc_u32. cbn [nfloor NumR]. fold k.
  replace (0 <=? k)%Z with true by lia. replace (k <? 2 ^ 32)%Z with true by lia. reflexivity.
Qed.
Lemma kth_unique n x k k' : kth n x k -> kth n x k' -> k = k'.
Proof. intros [_ A] [_ B]. assert (k < k' + 1)%Z by (apply lt_IZR; rewrite plus_IZR; lra). assert (k' < k + 1)%Z by (apply lt_IZR; rewrite plus_IZR; lra). lia. Qed.

(** ** coherent elastic *)
Lemma make_coh_valid a c : make_coh a = Ok c -> valid_coh c.
Proof.
  unfold make_coh. destruct (nxs a 4 =? 4)%Z.
  - intros M. apply bind_ok in M as (Ne & _ & M). apply bind_ok in M as (ed & E1 & M). apply bind_ok in M as (su & E2 & M).
    apply bind_ok in M as (? & G & M). apply guard_ok in G. apply is_sorted_increasing in G. apply bind_ok in M as (e0 & E0 & M).
    apply atR_inv in E0 as [S0 ->]. rch. destruct (Rltb_spec (getR ed 0) 0) as [|L]; [discriminate|]. injection M as <-.
    split; cbn [c_edges c_sum]; [exact G| |].
    + intros e He. apply In_getR in He as (i & Hi & ->). assert (getR ed 0 <= getR ed i) by (apply G; lia). lra.
    + unfold xss_vec, slice in E1, E2. destruct ((_ && _ && _)%bool) eqn:C1 in E1; [|discriminate]. destruct ((_ && _ && _)%bool) eqn:C2 in E2; [|discriminate].
      injection E1 as <-. injection E2 as <-. unfold sizeZ in *. rewrite !firstn_length, !skipn_length. lia.
  - intros M. injection M as <-. split; cbn; [intros i j ? ? H; cbn in H; lia|intros ? []|reflexivity].
Qed.
Lemma last_edge_unique ed E l l' : increasing ed -> last_edge_below ed E l -> last_edge_below ed E l' -> l = l'.
Proof.
  intros I (A1 & A2 & A3) (B1 & B2 & B3). destruct (Z.lt_trichotomy l l') as [H|[H|H]]; [exfalso|exact H|exfalso].
  - specialize (A3 ltac:(lia)). assert (getR ed (l + 1) <= getR ed l') by (apply I; lia). lra.
  - specialize (B3 ltac:(lia)). assert (getR ed (l' + 1) <= getR ed l) by (apply I; lia). lra.
Qed.
Lemma search_edge ed E : increasing ed -> (0 < sizeZ ed)%Z -> getR ed 0 < E -> exists l, lower_bound ed E = Ok (l + 1)%Z /\ last_edge_below ed E l.
Proof.
  intros I S H. destruct (lower_boundR ed E I) as (k & Ek & K0 & K1 & K2). exists (k - 1)%Z.
  assert (k <> 0%Z) by (intros ->; specialize (K2 0%Z ltac:(lia)); lra).
  split; [rewrite Ek; f_equal; lia|]. split; [lia|]. split; [apply K1; lia|]. intros. apply K2. lia.
Qed.
Lemma coh_xs_below c E : valid_coh c -> (0 < sizeZ (c_edges c))%Z -> E < getR (c_edges c) 0 -> coh_xs c E = Ok 0.
Proof.
  intros V S H. unfold coh_xs. replace (sizeZ (c_edges c) =? 0)%Z with false by lia. rewrite frontR_R, backR_R by lia. cbn [bind]. rch.
  destruct (Rltb_spec (getR (c_edges c) 0) E); [lra|]. cbn [andb]. destruct (Rltb_spec E (getR (c_edges c) 0)); [reflexivity|lra].
Qed.
Lemma coh_xs_between c E : valid_coh c -> (0 < sizeZ (c_edges c))%Z -> getR (c_edges c) 0 < E -> E <> getR (c_edges c) (sizeZ (c_edges c) - 1) ->
  exists l, last_edge_below (c_edges c) E l /\ coh_xs c E = Ok (getR (c_sum c) l / E).
Proof.
  intros V S H NE. destruct (search_edge _ E (vc_edges _ V) S H) as (l & El & L). exists l. split; [exact L|].
  unfold coh_xs. replace (sizeZ (c_edges c) =? 0)%Z with false by lia. rewrite frontR_R, !backR_R by (rewrite ?(vc_size _ V); lia). cbn [bind]. rch.
  destruct (Rltb_spec (getR (c_edges c) 0) E); [|lra]. cbn [andb].
  destruct (Rltb_spec E (getR (c_edges c) (sizeZ (c_edges c) - 1))) as [B|B].
  - rewrite El. cbn [bind]. replace (l + 1 - 1)%Z with l by lia. destruct L as [L _]. rewrite atR by (rewrite (vc_size _ V); lia). reflexivity.
  - destruct (Rltb_spec E (getR (c_edges c) 0)); [lra|]. cbn [bind]. do 2 f_equal. f_equal. rewrite (vc_size _ V).
    symmetry. apply (last_edge_unique (c_edges c) E); [apply V|exact L|]. split; [lia|]. split; [lra|lia].
Qed.
Lemma coh_xs_empty c E : sizeZ (c_edges c) = 0%Z -> coh_xs c E = Ok 0.
Proof. intros S. unfold coh_xs. rewrite S. reflexivity. Qed.
Lemma coh_xs_at_first c : valid_coh c -> (0 < sizeZ (c_edges c))%Z -> coh_xs c (getR (c_edges c) 0) = Ok (getR (c_sum c) (sizeZ (c_sum c) - 1) / getR (c_edges c) 0).
Proof.
  intros V S. unfold coh_xs. replace (sizeZ (c_edges c) =? 0)%Z with false by lia. rewrite frontR_R, !backR_R by (rewrite ?(vc_size _ V); lia). cbn [bind]. rch.
  destruct (Rltb_spec (getR (c_edges c) 0) (getR (c_edges c) 0)); [lra|]. cbn [andb]. destruct (Rltb_spec (getR (c_edges c) 0) (getR (c_edges c) 0)); [lra|reflexivity].
Qed.
(** sums increasing (as cumulated non-negative structure factors are) *)
Lemma coh_sample_spec c E xi ds : valid_coh c -> increasing (c_sum c) -> 0 <= getR (c_sum c) 0 -> (0 < sizeZ (c_edges c))%Z -> getR (c_edges c) 0 < E -> 0 <= xi < 1 ->
  exists l m, last_edge_below (c_edges c) E l /\ (0 <= m <= l)%Z /\
    xi * getR (c_sum c) l <= getR (c_sum c) m /\ ((0 < m)%Z -> getR (c_sum c) (m - 1) < xi * getR (c_sum c) l) /\
    coh_sample c E (xi :: ds) = Ok ((1 - 2 * getR (c_edges c) m / E, E), ds) /\ -1 < 1 - 2 * getR (c_edges c) m / E <= 1.
Proof.
  intros V IS S0 S H X. destruct (search_edge _ E (vc_edges _ V) S H) as (l & El & L). pose proof L as (L1 & L2 & _).
  assert (SL : 0 <= getR (c_sum c) l) by (assert (getR (c_sum c) 0 <= getR (c_sum c) l) by (apply IS; rewrite ?(vc_size _ V); lia); lra).
  destruct (lower_bound_rangeR (c_sum c) (xi * getR (c_sum c) l) 0 l IS) as (m & Em & M1 & M0 & M2 & M3); [lia|rewrite (vc_size _ V); lia|intros; lia| |].
  { intros i Hi. assert (getR (c_sum c) l <= getR (c_sum c) i) by (apply IS; lia). nra. }
  exists l, m. split; [exact L|]. split; [lia|]. split; [apply M3; rewrite (vc_size _ V); lia|]. split; [intros; apply M2; lia|].
  assert (EM : 0 <= getR (c_edges c) m < E).
  { split; [apply (vc_pos _ V), getR_In; lia|]. assert (getR (c_edges c) m <= getR (c_edges c) l) by (apply (vc_edges _ V); lia). lra. }
  split.
  - unfold coh_sample. replace (sizeZ (c_edges c) =? 0)%Z with false by lia. rewrite frontR_R by lia. unfold rbind at 1. cbn [rlift bind]. rch.
    destruct (Rltb_spec (getR (c_edges c) 0) E); [|lra]. unfold rbind, rlift, draw. rewrite El. cbn [bind]. replace (l + 1 - 1)%Z with l by lia.
    rewrite (atR (c_sum c)) by (rewrite (vc_size _ V); lia). cbn [bind]. rewrite Em. cbn [bind]. rewrite atR by lia. reflexivity.
  - assert (P : 0 < E) by lra. assert (Q : 0 <= getR (c_edges c) m / E < 1).
    { split; [apply Rmult_le_pos; [lra|left; apply Rinv_0_lt_compat; lra]|]. apply Rmult_lt_reg_r with E; [lra|]. unfold Rdiv. rewrite Rmult_assoc, Rinv_l, Rmult_1_r by lra. lra. }
    replace (2 * getR (c_edges c) m / E) with (2 * (getR (c_edges c) m / E)) by (field; lra). lra.
Qed.
Lemma coh_sample_below c E ds : (0 < sizeZ (c_edges c))%Z -> E <= getR (c_edges c) 0 -> coh_sample c E ds = Ok ((1, E), ds).
Proof.
  intros S H. unfold coh_sample. replace (sizeZ (c_edges c) =? 0)%Z with false by lia. rewrite frontR_R by lia. unfold rbind at 1. cbn [rlift bind]. rch.
  destruct (Rltb_spec (getR (c_edges c) 0) E); [lra|]. reflexivity.
Qed.

(** ** smearing *)
Lemma lerp_R row1 row2 f k : (0 <= k < sizeZ row1)%Z -> (0 <= k < sizeZ row2)%Z -> lerp_at row1 row2 f k = Ok (cos_at row1 row2 f k).
Proof. intros H1 H2. unfold lerp_at. rewrite !atR by assumption. cbn [bind]. unfold cos_at, mix. rch. f_equal. ring. Qed.
Lemma cos_at_bounds n row1 row2 f k : cosine_row n row1 -> cosine_row n row2 -> 0 <= f <= 1 -> (0 <= k < n)%Z -> -1 <= cos_at row1 row2 f k <= 1.
Proof.
  intros (A1 & A2 & A3) (B1 & B2 & B3) F K. specialize (A3 _ (getR_In row1 k ltac:(lia))). specialize (B3 _ (getR_In row2 k ltac:(lia))). unfold cos_at, mix. nra.
Qed.
Lemma cos_at_mono n row1 row2 f k k' : cosine_row n row1 -> cosine_row n row2 -> 0 <= f <= 1 -> (0 <= k <= k')%Z -> (k' < n)%Z -> cos_at row1 row2 f k <= cos_at row1 row2 f k'.
Proof.
  intros (A1 & A2 & A3) (B1 & B2 & B3) F K K'. apply mix_le; [exact F|apply A2; lia|apply B2; lia].
Qed.
Lemma smear_spec n row1 row2 f k z ds : (0 < n < 2 ^ 32)%Z -> cosine_row n row1 -> cosine_row n row2 -> 0 <= f <= 1 -> (0 <= k < n)%Z -> 0 <= z < 1 ->
  exists mu, smear row1 row2 f k n (z :: ds) = Ok (mu, ds) /\ in_cosine_bin row1 row2 f n k mu /\ -1 <= mu <= 1.
Proof.
  intros Hn C1 C2 F K Z0. pose proof (cos_at_bounds n row1 row2 f k C1 C2 F K) as B.
  assert (S1 : sizeZ row1 = n) by apply C1. assert (S2 : sizeZ row2 = n) by apply C2.
  unfold smear. rewrite lerp_R by lia. unfold rbind at 1. cbn [rlift bind]. set (m := cos_at row1 row2 f k) in *.
  replace (wrap32 (n - 1)) with (n - 1)%Z by (unfold wrap32; rewrite Z.mod_small; lia).
  pose (lo := if (k =? 0)%Z then -1 - (m + 1) else cos_at row1 row2 f (k - 1)). pose (hi := if (k =? n - 1)%Z then 1 - (m - 1) else cos_at row1 row2 f (k + 1)).
  assert (LO : (if (k =? 0)%Z then Ok ((- (1) - (m + 1))) else lerp_at row1 row2 f (k - 1)%Z) = Ok lo).
  { unfold lo. destruct (Z.eqb_spec k 0); [reflexivity|]. apply lerp_R; lia. }
  assert (HI : (if (k =? n - 1)%Z then Ok ((1 - (m - 1))) else lerp_at row1 row2 f (k + 1)%Z) = Ok hi).
  { unfold hi. destruct (Z.eqb_spec k (n - 1)); [reflexivity|]. apply lerp_R; lia. }
  rch. rewrite LO. unfold rbind at 1. cbn [rlift bind]. rewrite HI. unfold rbind at 1. cbn [rlift bind]. unfold rbind, draw, rret.
  eexists. split; [reflexivity|].
  assert (Lm : lo <= m) by (unfold lo, m; destruct (Z.eqb_spec k 0); [unfold m in B; lra|apply (cos_at_mono n); auto; lia]).
  assert (Hm : m <= hi) by (unfold hi, m; destruct (Z.eqb_spec k (n - 1)); [unfold m in B; lra|apply (cos_at_mono n); auto; lia]).
  unfold nlit. rch. replace (1 / 2) with (/ 2) by lra. unfold nmin. rch.
  set (g := if Rltb (hi - m) (m - lo) then hi - m else m - lo). assert (G : 0 <= g <= hi - m /\ g <= m - lo) by (unfold g; destruct (Rltb_spec (hi - m) (m - lo)); lra).
  assert (M : m - g / 2 <= m + g * (z - / 2) <= m + g / 2) by nra.
  unfold in_cosine_bin. cbv zeta. fold m.
  assert (E1 : (if (k =? 0)%Z then -1 else (cos_at row1 row2 f (k - 1) + m) / 2) = (lo + m) / 2) by (unfold lo; destruct (k =? 0)%Z; [lra|reflexivity]).
  assert (E2 : (if (k =? n - 1)%Z then 1 else (m + cos_at row1 row2 f (k + 1)) / 2) = (m + hi) / 2) by (unfold hi; destruct (k =? n - 1)%Z; [lra|reflexivity]).
  rewrite E1, E2. split; [lra|].
  assert (-1 <= (lo + m) / 2). { unfold lo. destruct (Z.eqb_spec k 0); [lra|]. pose proof (cos_at_bounds n row1 row2 f (k - 1) C1 C2 F ltac:(lia)). lra. }
  assert ((m + hi) / 2 <= 1). { unfold hi. destruct (Z.eqb_spec k (n - 1)); [lra|]. pose proof (cos_at_bounds n row1 row2 f (k + 1) C1 C2 F ltac:(lia)). lra. }
  lra.
Qed.

(** ** incoherent elastic *)
Lemma xss_vec_size (a : ace R) i n v : xss_vec a i n = Ok v -> sizeZ v = n /\ (0 <= n)%Z.
Proof. unfold xss_vec. intros H. apply slice_size in H as (A & B & C). split; lia. Qed.
Lemma row_valid row n : sizeZ row = n -> increasing row -> (0 < n)%Z -> ~ getR row 0 < -1 -> ~ 1 < getR row (n - 1) -> cosine_row n row.
Proof.
  intros S I P A B. split; [exact S|]. split; [exact I|]. intros m Hm. apply In_getR in Hm as (i & Hi & ->).
  assert (getR row 0 <= getR row i) by (apply I; lia). assert (getR row i <= getR row (n - 1)) by (apply I; lia). lra.
Qed.
Lemma read_cosines_valid a nmu : forall k i rows, read_cosines k a i nmu = Ok rows ->
  length rows = k /\ (forall r, In r rows -> cosine_row nmu r) /\ ((0 < k)%nat -> (0 < nmu)%Z).
Proof.
  induction k as [|k IH]; intros i rows H; cbn [read_cosines] in H; [injection H as <-; split; [reflexivity|split; [intros ? []|lia]]|].
  apply bind_ok in H as (row & E & H). apply bind_ok in H as (? & G & H). apply guard_ok in G. apply is_sorted_increasing in G.
  apply bind_ok in H as (c0 & E0 & H). apply atR_inv in E0 as [S0 ->]. rch. destruct (Rltb_spec (getR row 0) (- (1))) as [|A]; [discriminate|].
  apply bind_ok in H as (cn & En & H). apply atR_inv in En as [Sn ->]. destruct (Rltb_spec 1 (getR row (sizeZ row - 1))) as [|B]; [discriminate|].
  apply bind_ok in H as (rest & ER & H). injection H as <-. apply IH in ER as (L & R & _). split; [cbn; lia|].
  pose proof (xss_vec_size a i nmu row E) as [S _]. split; [|lia]. intros r [<-|Hr]; [|apply R; exact Hr]. apply row_valid; auto; [lia|lra|]. rewrite <- S. lra.
Qed.
Lemma wrap32_range z : (0 <= wrap32 z < 2 ^ 32)%Z. Proof. apply Z.mod_pos_bound. lia. Qed.
Lemma make_tab1_sorted (i : interpolation) (x y : list R) t : make_tab1 i x y = Ok t -> increasing x /\ length x = length y /\ t_x t = x /\ t_y t = y.
Proof.
  unfold make_tab1. intros M. apply bind_ok in M as (? & G & M). apply guard_ok in G. apply Nat.eqb_eq in G. apply bind_ok in M as (? & G2 & M). apply guard_ok in G2. apply is_sorted_increasing in G2.
  apply bind_ok in M as (xs & _ & M). apply bind_ok in M as (ys & _ & M). apply bind_ok in M as (r & _ & M). injection M as <-. auto.
Qed.
Lemma make_inco_valid a d : make_inco a = Ok d -> (0 < sizeZ (ie_in d))%Z -> valid_inco d.
Proof.
  unfold make_inco. intros M S. destruct ((nxs a 4 =? 4) || (jxs a 3 =? 0))%Z%bool.
  { apply bind_ok in M as (t & _ & M). injection M as <-. cbn in S. lia. }
  apply bind_ok in M as (Ne & EN & M). apply bind_ok in M as (en & E1 & M). apply bind_ok in M as (vals & E2 & M). apply bind_ok in M as (? & G & M).
  apply bind_ok in M as (t & ET & M). apply make_tab1_sorted in ET as (I & _). apply bind_ok in M as (rows & ER & M). injection M as <-. cbn [ie_in] in S.
  pose proof (wrap32_range (nxs a 5 + 1)) as W. apply read_cosines_valid in ER as (L & R & P).
  destruct (xss_vec_size a _ _ _ E1) as [SE _].
  split; cbn [ie_nmu ie_in ie_cos]; auto.
  - split; [apply P; lia|lia].
  - unfold sizeZ in *. lia.
Qed.
(** what the bracket says about the interpolation of a grid *)
Lemma inco_sample_spec d E x z ds : valid_inco d -> (2 <= sizeZ (ie_in d))%Z -> 0 <= x < 1 -> 0 <= z < 1 ->
  exists l f k mu, bracket (ie_in d) E l f /\ 0 <= f <= 1 /\ kth (ie_nmu d) x k /\
    inco_sample d E (x :: z :: ds) = Ok ((mu, E), ds) /\
    in_cosine_bin (nth (Z.to_nat l) (ie_cos d) []) (nth (Z.to_nat (l + 1)) (ie_cos d) []) f (ie_nmu d) k mu /\ -1 <= mu <= 1.
Proof.
  intros V S X Z0. destruct (select_bracket (ie_in d) E (vi_in _ V) S) as (l & f & Es & B & F).
  destruct (trunc_bin (ie_nmu d) x (vi_nmu _ V) X) as (k & Ek & K). pose proof B as (B0 & B1 & _).
  assert (A1 : atZ (ie_cos d) l = Ok (nth (Z.to_nat l) (ie_cos d) [])) by (apply atZ_nth; rewrite (vi_size _ V); lia).
  assert (A2 : atZ (ie_cos d) (l + 1) = Ok (nth (Z.to_nat (l + 1)) (ie_cos d) [])) by (apply atZ_nth; rewrite (vi_size _ V); lia).
  destruct (smear_spec (ie_nmu d) _ _ f k z ds (vi_nmu _ V) (vi_rows _ V _ (atZ_In _ _ _ A1)) (vi_rows _ V _ (atZ_In _ _ _ A2)) F (proj1 K) Z0) as (mu & Em & IB & MB).
  exists l, f, k, mu. split; [exact B|]. split; [exact F|]. split; [exact K|]. split; [|auto].
  unfold inco_sample. replace (sizeZ (ie_in d) =? 0)%Z with false by lia. unfold rbind at 1. rewrite Es. cbn [rlift bind].
  unfold rbind at 1. cbn [draw]. unfold rbind at 1. rch. rewrite Ek. cbn [rlift bind]. unfold rbind at 1. rewrite A1. cbn [rlift bind]. unfold rbind at 1. rewrite A2. cbn [rlift bind].
  unfold rbind. rewrite Em. reflexivity.
Qed.
Lemma inco_sample_single d E x z ds : valid_inco d -> sizeZ (ie_in d) = 1%Z -> 0 <= x < 1 -> inco_sample d E (x :: z :: ds) = UB.
Proof.
  intros V S X. destruct (trunc_bin (ie_nmu d) x (vi_nmu _ V) X) as (k & Ek & K). unfold inco_sample. rewrite S. cbn [Z.eqb].
  destruct (lower_boundR (ie_in d) E (vi_in _ V)) as (m & Em & M0 & _). unfold select. rewrite Em. cbn [bind]. rewrite S in *.
  destruct (Z.eqb_spec m 0) as [H0|H0]; [|destruct (Z.eqb_spec m 1); [|lia]]; unfold rbind at 1; cbn [rlift bind]; unfold rbind at 1; cbn [draw];
    unfold rbind at 1; rch; rewrite Ek; cbn [rlift bind].
  - unfold rbind at 1. rewrite (atZ_nth [] (ie_cos d) 0) by (rewrite (vi_size _ V); lia). cbn [rlift bind]. unfold rbind at 1. rewrite (atZ_out (ie_cos d) (0 + 1)) by (rewrite (vi_size _ V); lia). reflexivity.
  - unfold rbind at 1. rewrite (atZ_out (ie_cos d) (1 - 2)) by lia. reflexivity.
Qed.

(** ** discrete cosines and energies *)
Lemma read_dce_row_valid a nmu : forall k i row i', read_dce_row k a i nmu = Ok (row, i') ->
  length row = k /\ forall e, In e row -> 0 < fst e /\ sizeZ (snd e) = nmu /\ forall m, In m (snd e) -> -1 <= m <= 1.
Proof.
  induction k as [|k IH]; intros i row i' H; cbn [read_dce_row] in H; [injection H as <- <-; split; [reflexivity|intros ? []]|].
  apply bind_ok in H as (E & EE & H). rch. destruct (Rleb_spec E 0) as [|EP]; [discriminate|]. apply bind_ok in H as (mu & EM & H).
  apply bind_ok in H as (? & G & H). apply guard_ok in G. apply bind_ok in H as ([rest i''] & ER & H). injection H as <- <-.
  apply IH in ER as [L R]. split; [cbn; lia|]. intros e [<-|He]; [|apply R; exact He]. cbn [fst snd]. split; [lra|].
  destruct (xss_vec_size _ _ _ _ EM) as [S _]. split; [exact S|]. intros m Hm.
  apply negb_true_iff in G. assert (Q : ((Rltb m (- (1)) || Rltb 1 m)%bool) = false).
  { destruct (Rltb m (- (1)) || Rltb 1 m)%bool eqn:Q; [|reflexivity]. exfalso. rewrite <- not_true_iff_false in G. apply G. apply existsb_exists. exists m. split; assumption. }
  apply orb_false_iff in Q as [Q1 Q2]. apply Rltb_false in Q1, Q2. lra.
Qed.
Lemma read_dce_valid a nmu noe : forall k i out, read_dce k noe a i nmu = Ok out ->
  length out = k /\ forall row, In row out -> length row = noe /\ forall e, In e row -> 0 < fst e /\ sizeZ (snd e) = nmu /\ forall m, In m (snd e) -> -1 <= m <= 1.
Proof.
  induction k as [|k IH]; intros i out H; cbn [read_dce] in H; [injection H as <-; split; [reflexivity|intros ? []]|].
  apply bind_ok in H as ([row i'] & E & H). apply bind_ok in H as (rest & ER & H). injection H as <-. apply IH in ER as [L R].
  apply read_dce_row_valid in E. split; [cbn; lia|]. intros r [<-|Hr]; [exact E|apply R; exact Hr].
Qed.
Lemma make_dce_valid a d : make_dce a = Ok d -> (0 < sizeZ (d_in d))%Z -> (0 < d_noe d)%Z -> (0 < d_nmu d)%Z -> valid_dce d.
Proof.
  unfold make_dce. intros M S HN HM. apply bind_ok in M as (? & G0 & M). apply bind_ok in M as (Ne & EN & M). apply bind_ok in M as (en & E1 & M).
  apply bind_ok in M as (? & G1 & M). apply guard_ok in G1. apply is_sorted_increasing in G1. apply bind_ok in M as (? & G2 & M). apply guard_ok in G2.
  apply bind_ok in M as (out & EO & M). injection M as <-. cbn [d_in d_noe d_nmu] in *. destruct (xss_vec_size _ _ _ _ E1) as [SE SN].
  apply read_dce_valid in EO as [L R]. pose proof (wrap32_range (nxs a 3)). pose proof (wrap32_range (nxs a 2 + 1)).
  split; cbn [d_in d_noe d_nmu d_out d_skewed]; auto; try lia.
  - unfold sizeZ in *. lia.
  - intros row Hr. apply R in Hr as [Hr _]. unfold sizeZ. lia.
  - intros row e Hr He. apply R in Hr as [_ Hr]. apply Hr. exact He.
Qed.
Lemma dce_index_equi d x ds : valid_dce d -> d_skewed d = false -> 0 <= x < 1 -> exists j, dce_index d (x :: ds) = Ok (j, ds) /\ kth (d_noe d) x j.
Proof.
  intros V Q X. destruct (trunc_bin (d_noe d) x (vd_noe _ V) X) as (j & Ej & J). exists j. split; [|exact J].
  unfold dce_index. rewrite Q. cbn [negb]. unfold rbind, draw, rlift. rch. rewrite Ej. reflexivity.
Qed.
Lemma unit_prob_pos n : (6 <= n)%Z -> 0 < unit_prob n /\ 10 * unit_prob n < 1 /\ 10 * (IZR n - 4) * unit_prob n = 1 - 10 * unit_prob n.
Proof.
  intros H. apply IZR_le in H. unfold unit_prob. assert (P : 0 < 10 * (IZR n - 3)) by lra.
  split; [apply Rdiv_lt_0_compat; lra|]. split; [|field; lra]. apply Rmult_lt_reg_r with (10 * (IZR n - 3)); [exact P|]. unfold Rdiv. field_simplify; lra.
Qed.
Lemma dce_index_skew d xi x ds : valid_dce d -> d_skewed d = true -> 0 <= xi < 1 -> 0 <= x < 1 ->
  exists j rest, dce_index d (xi :: x :: ds) = Ok (j, rest) /\ skewed_index (d_noe d) xi x j /\ (0 <= j < d_noe d)%Z /\
    rest = (if Rleb (5 * unit_prob (d_noe d)) xi && Rltb xi (1 - 5 * unit_prob (d_noe d)) then ds else x :: ds).
Proof.
  intros V Q XI X. pose proof (vd_six _ V Q) as N6. pose proof (unit_prob_pos _ N6) as (P1 & P2 & P3). pose proof (vd_noe _ V) as N32.
  unfold dce_index. rewrite Q. cbn [negb]. unfold rbind at 1. cbn [draw]. rch. fold (unit_prob (d_noe d)). set (c := unit_prob (d_noe d)) in *. cbv zeta.
  unfold skewed_index. fold c.
  assert (W : forall k, (0 <= k <= d_noe d)%Z -> wrap32 (d_noe d - k) = (d_noe d - k)%Z) by (intros; unfold wrap32; rewrite Z.mod_small; lia).
  destruct (Rleb_spec (5 * c) xi) as [A|A]; cbn [andb]; [destruct (Rltb_spec xi (1 - 5 * c)) as [B|B]; cbn [andb]|].
  - destruct (trunc_bin (d_noe d - 4) x ltac:(lia) X) as (k & Ek & K). exists (k + 2)%Z, ds.
    split; [|split; [|split; [destruct K; lia|reflexivity]]].
    + unfold rbind, rlift. cbn [draw]. rewrite W by lia. unfold trunc_u32 in *. cbn [nfloor NumR] in *.
      replace (Int_part (IZR (d_noe d - 4) * x + 2)) with (k + 2)%Z; [replace (0 <=? k + 2)%Z with true by (destruct K; lia); replace (k + 2 <? 2 ^ 32)%Z with true by (destruct K; lia); reflexivity|].
      destruct K as [K1 K2]. pose proof (Int_part_spec (IZR (d_noe d - 4) * x + 2)) as I. clear Ek; set (q := Int_part (IZR (d_noe d - 4) * x + 2)) in *.
      assert (k + 2 < q + 1)%Z by (apply lt_IZR; rewrite !plus_IZR; lra). assert (q < k + 2 + 1)%Z by (apply lt_IZR; rewrite !plus_IZR; lra). lia.
    + right; right; left. replace (k + 2 - 2)%Z with k by lia. split; [lra|exact K].
  - destruct (Rltb_spec xi c); [lra|]. destruct (Rleb_spec c xi); [|lra]. cbn [andb]. destruct (Rltb_spec xi (5 * c)); [lra|].
    destruct (Rleb_spec (1 - 5 * c) xi); [|lra]. cbn [andb]. destruct (Rltb_spec xi (1 - c)).
    + rewrite W by lia. exists (d_noe d - 2)%Z, (x :: ds). split; [reflexivity|]. split; [|split; [lia|reflexivity]]. right; right; right; left. split; [lra|reflexivity].
    + rewrite W by lia. exists (d_noe d - 1)%Z, (x :: ds). split; [reflexivity|]. split; [|split; [lia|reflexivity]]. right; right; right; right. split; [lra|reflexivity].
  - destruct (Rltb_spec xi c).
    + exists 0%Z, (x :: ds). split; [reflexivity|]. split; [|split; [lia|reflexivity]]. left. split; [lra|reflexivity].
    + destruct (Rleb_spec c xi); [|lra]. cbn [andb]. destruct (Rltb_spec xi (5 * c)); [|lra].
      exists 1%Z, (x :: ds). split; [reflexivity|]. split; [|split; [lia|reflexivity]]. right; left. split; [lra|reflexivity].
Qed.
Lemma dce_at_ok d i j k row : valid_dce d -> atZ (d_out d) i = Ok row -> (0 <= j < d_noe d)%Z -> (0 <= k < d_nmu d)%Z ->
  dce_at row j k = Ok (dce_cos d i j k, dce_energy d i j) /\ 0 < dce_energy d i j /\ -1 <= dce_cos d i j k <= 1.
Proof.
  intros V A J K. pose proof (atZ_In _ _ _ A) as I. pose proof (vd_rows _ V _ I) as SR. pose proof A as A'. apply atZ_inv in A' as [Hi _].
  rewrite (atZ_nth []) in A by exact Hi. injection A as A. unfold dce_cos, dce_energy. rewrite A.
  unfold dce_at. rewrite (atZ_nth (0, [])) by lia. cbn [bind]. set (e := nth (Z.to_nat j) row (0, [])).
  assert (Ie : In e row) by (apply nth_In; unfold sizeZ in SR; lia). destruct (vd_entries _ V _ _ I Ie) as (P & Sm & B).
  rewrite atR by lia. cbn [bind]. split; [reflexivity|]. split; [exact P|]. apply B, getR_In. lia.
Qed.
Lemma dce_after d E j k (ds : list R) : valid_dce d -> (0 <= j < d_noe d)%Z -> (0 <= k < d_nmu d)%Z ->
  exists i1 i2 f mu, neighbours (d_in d) E i1 i2 f /\ mu = mix f (dce_cos d i1 j k) (dce_cos d i2 j k) /\ -1 <= mu <= 1 /\
   0 < mix f (dce_energy d i1 j) (dce_energy d i2 j) /\
  (rlet! it := rlift (lower_bound (d_in d) E) in
    if (it =? 0)%Z then rlet! row := rlift (frontR (d_out d)) in rlift (dce_at row j k)
    else if (it =? sizeZ (d_in d))%Z then rlet! row := rlift (backR (d_out d)) in rlift (dce_at row j k)
    else
      let i := (it - 1)%Z in
      rlet! e1 := rlift (atZ (d_in d) i) in
      rlet! e2 := rlift (atZ (d_in d) (i + 1)%Z) in
      let f := ((E - e1) / (e2 - e1)) in
      rlet! row1 := rlift (atZ (d_out d) i) in
      rlet! row2 := rlift (atZ (d_out d) (i + 1)%Z) in
      rlet! p1 := rlift (dce_at row1 j k) in
      rlet! p2 := rlift (dce_at row2 j k) in
      let Eo := snd p1 + f * (snd p2 - snd p1) in
      let mu := fst p1 + f * (fst p2 - fst p1) in
      rret (clamp_mu mu, Eo)) ds = Ok ((mu, mix f (dce_energy d i1 j) (dce_energy d i2 j)), ds).
Proof.
  intros V J K. pose proof (vd_some _ V) as S. pose proof (vd_size _ V) as SO.
  destruct (lower_boundR (d_in d) E (vd_in _ V)) as (m & Em & M0 & M1 & M2). unfold rbind at 1. rewrite Em. cbn [rlift bind].
  destruct (Z.eqb_spec m 0) as [->|H0]; [|destruct (Z.eqb_spec m (sizeZ (d_in d))) as [->|H1]].
  - assert (A : frontR (d_out d) = Ok (nth (Z.to_nat 0) (d_out d) [])) by (unfold frontR; apply atZ_nth; lia).
    pose proof A as A'. apply (dce_at_ok d 0 j k) in A' as (D & PE & PM); auto.
    exists 0%Z, 0%Z, 0, (dce_cos d 0 j k). split; [|split; [unfold mix; ring|split; [exact PM|split; [unfold mix; lra|]]]].
    + split; [lia|]. split; [lia|]. split; [lra|]. left. split; [apply M2; lia|auto].
    + unfold rbind at 1. rewrite A. cbn [rlift bind]. unfold rlift. rewrite D. cbn [bind]. do 3 f_equal. unfold mix. ring.
  - set (n := (sizeZ (d_in d) - 1)%Z). assert (A : backR (d_out d) = Ok (nth (Z.to_nat n) (d_out d) [])) by (unfold backR; rewrite SO; apply atZ_nth; lia).
    assert (A' : atZ (d_out d) n = Ok (nth (Z.to_nat n) (d_out d) [])) by (apply atZ_nth; lia). apply (dce_at_ok d n j k) in A' as (D & PE & PM); auto.
    exists n, n, 0, (dce_cos d n j k). split; [|split; [unfold mix; ring|split; [exact PM|split; [unfold mix; lra|]]]].
    + split; [lia|]. split; [lia|]. split; [lra|]. right; left. split; [apply M1; lia|auto].
    + unfold rbind at 1. rewrite A. cbn [rlift bind]. unfold rlift. rewrite D. cbn [bind]. do 3 f_equal. unfold mix. ring.
  - cbv zeta. replace (m - 1 + 1)%Z with m by lia. set (i := (m - 1)%Z) in *.
    assert (L1 : getR (d_in d) i < E) by (apply M1; lia). assert (L2 : E <= getR (d_in d) m) by (apply M2; lia).
    unfold rbind at 1. rewrite (atR (d_in d) i) by lia. cbn [rlift bind]. unfold rbind at 1. rewrite (atR (d_in d) m) by lia. cbn [rlift bind].
    set (f := (E - getR (d_in d) i) / (getR (d_in d) m - getR (d_in d) i)).
    assert (D : 0 < getR (d_in d) m - getR (d_in d) i) by lra.
    assert (EQ : f * (getR (d_in d) m - getR (d_in d) i) = E - getR (d_in d) i) by (unfold f; field; lra).
    assert (F : 0 <= f <= 1) by (split; nra).
    assert (A1 : atZ (d_out d) i = Ok (nth (Z.to_nat i) (d_out d) [])) by (apply atZ_nth; lia).
    assert (A2 : atZ (d_out d) m = Ok (nth (Z.to_nat m) (d_out d) [])) by (apply atZ_nth; lia).
    destruct (dce_at_ok d i j k _ V A1 J K) as (D1 & PE1 & PM1). destruct (dce_at_ok d m j k _ V A2 J K) as (D2 & PE2 & PM2).
    exists i, m, f, (mix f (dce_cos d i j k) (dce_cos d m j k)).
    assert (MB : -1 <= mix f (dce_cos d i j k) (dce_cos d m j k) <= 1) by (unfold mix; nra).
    split; [|split; [reflexivity|split; [exact MB|split; [unfold mix; destruct (Rle_dec f (/2)); nra|]]]].
    + split; [lia|]. split; [lia|]. split; [exact F|]. right; right. split; [lia|]. split; [lra|]. unfold mix. lra.
    + unfold rbind at 1. rewrite A1. cbn [rlift bind]. unfold rbind at 1. rewrite A2. cbn [rlift bind]. unfold rbind at 1. rewrite D1. cbn [rlift bind].
      unfold rbind at 1. rewrite D2. cbn [rlift bind fst snd rret]. unfold rret. do 3 f_equal; [|unfold mix; ring].
      replace (dce_cos d i j k + f * (dce_cos d m j k - dce_cos d i j k)) with (mix f (dce_cos d i j k) (dce_cos d m j k)) by (unfold mix; ring).
      apply clamp_mu_id. exact MB.
Qed.
Lemma dce_sample_equi d E x y ds : valid_dce d -> d_skewed d = false -> 0 <= x < 1 -> 0 <= y < 1 ->
  exists j k i1 i2 f mu Eo, kth (d_nmu d) x k /\ kth (d_noe d) y j /\ neighbours (d_in d) E i1 i2 f /\ mu = mix f (dce_cos d i1 j k) (dce_cos d i2 j k) /\ -1 <= mu <= 1 /\
    Eo = mix f (dce_energy d i1 j) (dce_energy d i2 j) /\ 0 < Eo /\ dce_sample d E (x :: y :: ds) = Ok ((mu, Eo), ds).
Proof.
  intros V Q X Y. destruct (trunc_bin (d_nmu d) x (vd_nmu _ V) X) as (k & Ek & K). destruct (dce_index_equi d y ds V Q Y) as (j & Ej & J).
  destruct (dce_after d E j k ds V (proj1 J) (proj1 K)) as (i1 & i2 & f & mu & NB & EM & MB & EP & R).
  exists j, k, i1, i2, f, mu, (mix f (dce_energy d i1 j) (dce_energy d i2 j)). repeat (split; [assumption || reflexivity|]).
  unfold dce_sample. unfold rbind at 1. cbn [draw]. unfold rbind at 1. rch. rewrite Ek. cbn [rlift bind]. unfold rbind at 1. rewrite Ej. exact R.
Qed.
Lemma dce_sample_skew d E x xi y ds : valid_dce d -> d_skewed d = true -> 0 <= x < 1 -> 0 <= xi < 1 -> 0 <= y < 1 ->
  exists j k i1 i2 f mu Eo rest, kth (d_nmu d) x k /\ skewed_index (d_noe d) xi y j /\ (0 <= j < d_noe d)%Z /\ neighbours (d_in d) E i1 i2 f /\ mu = mix f (dce_cos d i1 j k) (dce_cos d i2 j k) /\ -1 <= mu <= 1 /\
    Eo = mix f (dce_energy d i1 j) (dce_energy d i2 j) /\ 0 < Eo /\ dce_sample d E (x :: xi :: y :: ds) = Ok ((mu, Eo), rest).
Proof.
  intros V Q X XI Y. destruct (trunc_bin (d_nmu d) x (vd_nmu _ V) X) as (k & Ek & K). destruct (dce_index_skew d xi y ds V Q XI Y) as (j & rest & Ej & SJ & J & _).
  destruct (dce_after d E j k rest V J (proj1 K)) as (i1 & i2 & f & mu & NB & EM & MB & EP & R).
  exists j, k, i1, i2, f, mu, (mix f (dce_energy d i1 j) (dce_energy d i2 j)), rest. repeat (split; [assumption || reflexivity|]).
  unfold dce_sample. unfold rbind at 1. cbn [draw]. unfold rbind at 1. rch. rewrite Ek. cbn [rlift bind]. unfold rbind at 1. rewrite Ej. exact R.
Qed.
(** the five intervals of the skewed choice have lengths c, 4c, (n - 4) * 10 c, 4c, c and tile [0,1) *)
Lemma skewed_total n : (6 <= n)%Z -> let c := unit_prob n in
  c + 4 * c + (IZR n - 4) * (10 * c) + 4 * c + c = 1 /\ 1 - 5 * c - 5 * c = (IZR n - 4) * (10 * c).
Proof. intros H. destruct (unit_prob_pos n H) as (A & B & C). cbv zeta. split; lra. Qed.
Lemma skewed_unique n xi y j j' : (6 <= n)%Z -> skewed_index n xi y j -> skewed_index n xi y j' -> j = j'.
Proof.
  intros H A B. destruct (unit_prob_pos n H) as (P1 & P2 & P3). assert (10 * unit_prob n <= (IZR n - 4) * (10 * unit_prob n) ) by (apply IZR_le in H; nra).
  unfold skewed_index in *. cbv zeta in *.
  destruct A as [[A Aj]|[[A Aj]|[[A Aj]|[[A Aj]|[A Aj]]]]]; destruct B as [[B Bj]|[[B Bj]|[[B Bj]|[[B Bj]|[B Bj]]]]]; try lra; try congruence.
  pose proof (kth_unique _ _ _ _ Aj Bj). lia.
Qed.
Lemma dce_skew_accepted a d E x xi y ds : make_dce a = Ok d -> (0 < sizeZ (d_in d))%Z -> (0 < d_nmu d)%Z -> d_skewed d = true -> 0 <= x < 1 -> 0 <= xi < 1 -> 0 <= y < 1 ->
  exists j k i1 i2 f mu Eo rest, kth (d_nmu d) x k /\ skewed_index (d_noe d) xi y j /\ (0 <= j < d_noe d)%Z /\ neighbours (d_in d) E i1 i2 f /\ mu = mix f (dce_cos d i1 j k) (dce_cos d i2 j k) /\ -1 <= mu <= 1 /\
    Eo = mix f (dce_energy d i1 j) (dce_energy d i2 j) /\ 0 < Eo /\ dce_sample d E (x :: xi :: y :: ds) = Ok ((mu, Eo), rest).
Proof.
  intros M S1 S3 Q. apply dce_sample_skew; [|exact Q]. apply (make_dce_valid a d M S1); [|exact S3].
  unfold make_dce in M. apply bind_ok in M as (? & G0 & M). apply bind_ok in M as (Ne & EN & M). apply bind_ok in M as (en & E1 & M).
  apply bind_ok in M as (? & G1 & M). apply bind_ok in M as (? & G2 & M). apply guard_ok in G2.
  apply bind_ok in M as (out & EO & M). injection M as <-. cbn [d_noe d_skewed] in *. lia.
Qed.
Lemma index_probabilities n : ((0 < n < 2 ^ 32)%Z -> forall x, 0 <= x < 1 -> exists! k, kth n x k) /\
  ((6 <= n < 2 ^ 32)%Z -> let c := unit_prob n in c + 4 * c + (IZR n - 4) * (10 * c) + 4 * c + c = 1 /\ 1 - 5 * c - 5 * c = (IZR n - 4) * (10 * c) /\
    forall xi y, 0 <= xi < 1 -> 0 <= y < 1 -> exists! j, skewed_index n xi y j).
Proof.
  split.
  - intros Hn x Hx. destruct (trunc_bin n x Hn Hx) as (k & _ & K). exists k. split; [exact K|]. intros k' K'. apply (kth_unique _ _ _ _ K K').
  - intros Hn c. destruct (skewed_total n ltac:(lia)) as [T1 T2]. split; [exact T1|]. split; [exact T2|]. intros xi y XI Y.
    assert (U : exists j, skewed_index n xi y j).
    { unfold skewed_index. cbv zeta. fold c. destruct (Rlt_dec xi c); [exists 0%Z; left; split; [lra|reflexivity]|]. destruct (Rlt_dec xi (5 * c)); [exists 1%Z; right; left; split; [lra|reflexivity]|].
      destruct (Rlt_dec xi (1 - 5 * c)); [destruct (trunc_bin (n - 4) y ltac:(lia) Y) as (k & _ & K); exists (k + 2)%Z; right; right; left; replace (k + 2 - 2)%Z with k by lia; split; [lra|exact K]|].
      destruct (Rlt_dec xi (1 - c)); [exists (n - 2)%Z; right; right; right; left; split; [lra|reflexivity]|exists (n - 1)%Z; right; right; right; right; split; [lra|reflexivity]]. }
    destruct U as [j J]. exists j. split; [exact J|]. intros j' J'. apply (skewed_unique n xi y); auto. lia.
Qed.
