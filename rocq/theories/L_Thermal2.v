(** * Continuous outgoing energies, discrete cosines: the tables, and sampling *)
From Coquelicot Require Import Coquelicot.
From Coq Require Import Reals Lra Lia.
From Verif Require Import Base NumR L_Search L_SearchR M_Interp M_Tab1D M_Grid M_PC S_PC L_PC L_PCR L_Angle M_OutE S_OutE L_OutE L_OutE2 M_Ace M_Thermal S_Thermal L_Ace L_Grid L_Neutron L_Neutron2 L_Thermal.
From Coq Require Import ZifyBool ZifyNat Sorting.Permutation.
Local Open Scope R_scope.

(** ** sorting *)
Lemma insert_sorted_perm x : forall l, Permutation (x :: l) (insert_sorted x l).
Proof.
  induction l as [|y l IH]; [reflexivity|]. cbn [insert_sorted]. destruct (nltb x y); [reflexivity|].
  rewrite perm_swap. apply perm_skip. exact IH.
Qed.
Lemma sort_perm l : Permutation l (sort l).
Proof. induction l as [|x l IH]; [reflexivity|]. cbn [sort fold_right]. rewrite IH at 1. apply insert_sorted_perm. Qed.
Definition asc (l : list R) : Prop := is_sorted l = true.
Lemma asc_cons x l : asc (x :: l) <-> asc l /\ (forall y, In y l -> x <= y).
Proof.
  revert x. induction l as [|y l IH]; intros x; [split; [intros _; split; [reflexivity|intros ? []]|reflexivity]|].
  unfold asc in *. change (is_sorted (x :: y :: l)) with (negb (Rltb y x) && is_sorted (y :: l))%bool. rewrite andb_true_iff, negb_true_iff, Rltb_false.
  split; intros [A B]; (split; [|]).
  - exact B.
  - apply IH in B as [_ B']. intros z [<-|Hz]; [exact A|]. specialize (B' z Hz). lra.
  - apply B. left; reflexivity.
  - exact A.
Qed.
Lemma insert_asc x l : asc l -> asc (insert_sorted x l).
Proof.
  induction l as [|y l IH]; intros A; [reflexivity|]. cbn [insert_sorted]. rch. destruct (Rltb_spec x y) as [L|L].
  - apply asc_cons. split; [exact A|]. apply asc_cons in A as [_ A]. intros z [<-|Hz]; [lra|]. specialize (A z Hz). lra.
  - pose proof A as A'. apply asc_cons in A as [A1 A2]. apply asc_cons. split; [apply IH, A1|]. intros z Hz.
    apply (Permutation_in _ (Permutation_sym (insert_sorted_perm x l))) in Hz as [<-|Hz]; [lra|apply A2; exact Hz].
Qed.
Lemma sort_asc l : asc (sort l).
Proof. induction l as [|x l IH]; [reflexivity|]. cbn [sort fold_right]. apply insert_asc, IH. Qed.
Lemma sort_increasing l : increasing (sort l). Proof. apply is_sorted_increasing, sort_asc. Qed.
Lemma sort_size (l : list R) : sizeZ (sort l) = sizeZ l. Proof. unfold sizeZ. rewrite <- (Permutation_length (sort_perm l)). reflexivity. Qed.

(** ** the prepended isotropic cosines *)
Lemma iso_size n mu dmu : length (@iso_angles R NumR n mu dmu) = n.
Proof. revert mu. induction n as [|n IH]; intros mu; [reflexivity|]. cbn [iso_angles length]. rewrite IH. reflexivity. Qed.
Lemma iso_range n mu dmu : 0 <= dmu -> (forall m, In m (@iso_angles R NumR n mu dmu) -> mu <= m <= mu + (INR n - 1) * dmu) /\ asc (@iso_angles R NumR n mu dmu).
Proof.
  intros D. revert mu. induction n as [|n IH]; intros mu; [split; [intros ? []|reflexivity]|]. destruct (IH (mu + dmu)) as [A B]. cbn [iso_angles]. rch. rewrite S_INR. pose proof (pos_INR n). split.
  - intros m [<-|Hm]; [split; [lra|nra]|]. specialize (A m Hm). split; lra.
  - apply asc_cons. split; [exact B|]. intros y Hy. specialize (A y Hy). lra.
Qed.
Lemma iso_cosines n : (0 < n)%Z -> cosine_row n (@iso_angles R NumR (Z.to_nat n) (- (1) + (1 / 2) * (2 / IZR n)) (2 / IZR n)).
Proof.
  intros Hn. apply IZR_lt in Hn as HN. assert (D : 0 < 2 / IZR n) by (apply Rdiv_lt_0_compat; lra). split; [unfold sizeZ; rewrite iso_size; lia|].
  destruct (iso_range (Z.to_nat n) (- (1) + (1 / 2) * (2 / IZR n)) (2 / IZR n) ltac:(lra)) as [A B]. split; [apply is_sorted_increasing, B|].
  intros m Hm. specialize (A m Hm). rewrite INR_IZR_INZ, Z2Nat.id in A by lia. assert (IZR n * (2 / IZR n) = 2) by (field; lra). lra.
Qed.

(** ** the entries of a table *)
Lemma read_entries_valid a nmu : forall k l es, read_entries k a l nmu = Ok es -> length es = k /\ ((0 < k)%nat -> (0 < nmu)%Z) /\ forall e, In e es -> cosine_row nmu (snd e).
Proof.
  induction k as [|k IH]; intros l es H; cbn [read_entries] in H; [injection H as <-; split; [reflexivity|split; [lia|intros ? []]]|].
  apply bind_ok in H as (E & _ & H). apply bind_ok in H as (p & _ & H). apply bind_ok in H as (c & _ & H). apply bind_ok in H as (mu0 & EM & H). apply xss_vec_size in EM as [SM SN].
  set (mu := if is_sorted mu0 then mu0 else sort mu0) in H.
  assert (I : increasing mu) by (unfold mu; destruct (is_sorted mu0) eqn:Q; [apply is_sorted_increasing, Q|apply sort_increasing]).
  assert (SZ : sizeZ mu = nmu) by (unfold mu; destruct (is_sorted mu0); [exact SM|rewrite sort_size; exact SM]). clearbody mu.
  apply bind_ok in H as (m0 & E0 & H). apply atR_inv in E0 as [S0 ->]. rch. destruct (Rltb_spec (getR mu 0) (- (1))) as [|A]; [discriminate|].
  apply bind_ok in H as (mn & En & H). apply atR_inv in En as [Sn ->]. destruct (Rltb_spec 1 (getR mu (sizeZ mu - 1))) as [|B]; [discriminate|].
  apply bind_ok in H as (rest & ER & H). apply IH in ER as (L & P & R). injection H as <-. split; [cbn; lia|]. split; [lia|].
  intros e [<-|He]; [|apply R, He]. cbn [snd]. rewrite <- SZ. apply row_valid; auto; first [lia|lra].
Qed.
Lemma make_ctable_shape a l Noe nmu t : (0 <= nmu)%Z -> make_ctable a l Noe nmu = Ok t -> shape_ct nmu t /\ (0 < nmu)%Z.
Proof.
  intros Hnmu. unfold make_ctable. intros M. apply bind_ok in M as (es0 & EE & M). apply read_entries_valid in EE as (L & P & RR).
  set (first := match es0 with (_, _, c0, _) :: _ => nltb (nofZ 0) c0 | [] => false end) in M. cbv zeta in M.
  assert (NP : es0 <> [] -> (0 < nmu)%Z) by (intros Q; apply P; destruct es0; [congruence|cbn in L; lia]).
  match type of M with context [if first then ?h :: es0 else es0] => set (es := if first then h :: es0 else es0) in M;
    assert (RE : forall e, In e es -> cosine_row nmu (snd e)) end.
  { unfold es. destruct first eqn:F; [|exact RR]. assert (Q : (0 < nmu)%Z) by (apply NP; unfold first in F; destruct es0; congruence).
    intros e [<-|He]; [|apply RR, He]. cbn [snd]. unfold nlit. rch. apply iso_cosines, Q. }
  assert (NE : es <> [] -> es0 <> []) by (unfold es; destruct first eqn:F; [intros _ Q; subst es0; unfold first in F; discriminate|auto]).
  clearbody es. clearbody first.
  apply bind_ok in M as (? & G1 & M). apply guard_ok in G1. apply is_sorted_increasing in G1. apply bind_ok in M as (e0 & E0 & M). apply atR_inv in E0 as [S0 ->].
  rch. match type of M with context [Rltb ?x 0] => destruct (Rltb_spec x 0) as [|EP]; [discriminate|] end.
  apply bind_ok in M as (? & G2 & M). apply guard_ok in G2. apply is_sorted_increasing in G2. apply bind_ok in M as (pdf & EP2 & M). injection M as <-.
  apply mapR_ok in EP2 as [LP QP]. unfold sizeZ in S0. rewrite map_length in S0.
  split; [|apply NP, NE; intros ->; cbn in S0; lia].
  split; cbn [ct_energy ct_pdf ct_cdf ct_cos]; auto; try (unfold sizeZ; rewrite ?LP, ?map_length; lia).
  - intros e He. apply In_getR in He as (i & Hi & ->). match goal with |- 0 <= getR ?l i => assert (getR l 0 <= getR l i) by (apply G1; lia) end. lra.
  - intros p Hp. apply In_nth_error in Hp as [i Hi]. assert (HL : (i < length (map (fun e : R * R * R * list R => snd (fst (fst e))) es))%nat) by (rewrite <- LP; apply nth_error_Some; congruence).
    destruct (nth_error (map (fun e : R * R * R * list R => snd (fst (fst e))) es) i) as [q|] eqn:Q; [|apply nth_error_None in Q; lia].
    destruct (QP i q Q) as (b & Hb & F). rewrite Hi in Hb. injection Hb as <-. unfold fix_pdf in F. rch. destruct (Rltb_spec q 0).
    + destruct (Rltb _ _); [|discriminate]. injection F as <-. lra.
    + injection F as <-. lra.
  - intros r Hr. apply in_map_iff in Hr as (e & <- & He). apply RE, He.
Qed.
Lemma make_ctables_shape a nmu : (0 <= nmu)%Z -> forall locs noes ts, make_ctables a locs noes nmu = Ok ts -> length ts = Nat.min (length locs) (length noes) /\ (ts <> [] -> (0 < nmu)%Z) /\ forall t, In t ts -> shape_ct nmu t.
Proof.
  intros Hn. induction locs as [|l ls IH]; intros noes ts H; [injection H as <-; split; [reflexivity|split; [congruence|intros ? []]]|].
  destruct noes as [|n ns]; [injection H as <-; split; [reflexivity|split; [congruence|intros ? []]]|].
  cbn [make_ctables] in H. apply bind_ok in H as (t & ET & H). apply bind_ok in H as (rest & ER & H). injection H as <-. apply IH in ER as (L & P & R).
  apply make_ctable_shape in ET as [S N]; [|exact Hn]. split; [cbn; lia|]. split; [auto|]. intros u [<-|Hu]; auto.
Qed.
Lemma make_cedc_shape a u d : make_cedc a u = Ok d -> (0 < sizeZ (ce_in d))%Z -> shape_cedc d /\ ce_unit d = u.
Proof.
  unfold make_cedc. intros M. apply bind_ok in M as (? & G0 & M). apply bind_ok in M as (Ne & EN & M). apply bind_ok in M as (en & E1 & M). apply xss_vec_size in E1 as [SE SN].
  apply bind_ok in M as (? & G1 & M). apply guard_ok in G1. apply is_sorted_increasing in G1. apply bind_ok in M as (locs & EL & M). apply bind_ok in M as (noes & EO & M).
  apply bind_ok in M as (ts & ET & M). injection M as <-. cbn [ce_in]. intros S. split; [|reflexivity].
  pose proof (wrap32_range (nxs a 2 - 1)) as W. apply make_ctables_shape in ET as (L & P & R); [|lia].
  unfold xss_vec_u32 in EL, EO. apply mapR_ok in EL as [LL _]. apply mapR_ok in EO as [LO _]. unfold zseq in LL, LO. rewrite map_length, seq_length in LL, LO.
  assert (LT : sizeZ ts = sizeZ en) by (unfold sizeZ in *; lia).
  split; cbn [ce_nmu ce_in ce_tables]; auto. split; [apply P; intros ->; unfold sizeZ in LT; cbn in LT; unfold sizeZ in S; lia|lia].
Qed.

(** ** sampling one table *)
Lemma ct_shape_ok nmu t xi : shape_ct nmu t -> (2 <= sizeZ (ct_energy t))%Z -> exists h j, ct_sample t xi = Ok (h, j) /\ (0 <= j)%Z /\ (j + 1 < sizeZ (ct_energy t))%Z.
Proof.
  intros [I1 I2 I3 I4 S0 S1 S2 S3 _] N. unfold ct_sample. destruct (lower_boundR (ct_cdf t) xi I3) as (k & Ek & K0 & _). rewrite Ek. cbn [bind]. rewrite S2 in *.
  set (l := if (k =? 0)%Z then 0%Z else if (k =? sizeZ (ct_energy t))%Z then (sizeZ (ct_energy t) - 2)%Z else (k - 1)%Z).
  assert (L : (0 <= l)%Z /\ (l + 1 < sizeZ (ct_energy t))%Z) by (unfold l; destruct (Z.eqb_spec k 0); [lia|destruct (Z.eqb_spec k (sizeZ (ct_energy t))); lia]).
  clearbody l. cbv zeta. rewrite !atR by lia. cbn [bind]. destruct (neqb _ _); eexists _, l; (split; [reflexivity|exact L]).
Qed.
Lemma nmax_comm (a b : R) : @nmax R NumR a b = @nmax R NumR b a.
Proof. unfold nmax. rch. destruct (Rltb_spec a b), (Rltb_spec b a); lra. Qed.
Lemma ct_sample_spec nmu t xi : valid_ct nmu t -> 0 <= xi < 1 -> exists h j, ct_sample t xi = Ok (h, j) /\ (0 <= j)%Z /\ (j + 1 < sizeZ (ct_energy t))%Z /\
  getR (ct_cdf t) j <= xi <= getR (ct_cdf t) (j + 1) /\ getR (ct_energy t) j <= h <= getR (ct_energy t) (j + 1) /\
  is_RInt (dens (ct_energy t) (ct_pdf t) (ct_cdf t) LinLin) (getR (ct_energy t) 0) h xi.
Proof.
  intros [[I1 I2 I3 I4 S0 S1 S2 S3 _] V] X. pose proof (vt_first _ _ _ _ V) as C0. pose proof (vt_last _ _ _ _ V) as C1. rewrite S2 in C1.
  assert (N : (2 <= sizeZ (ct_energy t))%Z). { destruct (Z_lt_dec 1 (sizeZ (ct_energy t))); [lia|]. replace (sizeZ (ct_energy t) - 1)%Z with 0%Z in C1 by lia. lra. }
  destruct (lower_boundR (ct_cdf t) xi I3) as (k & Ek & K0 & K1 & K2). rewrite S2 in *.
  assert (Kn : (k < sizeZ (ct_energy t))%Z). { destruct (Z_lt_dec k (sizeZ (ct_energy t))); [assumption|]. specialize (K1 (sizeZ (ct_energy t) - 1)%Z ltac:(lia)). lra. }
  unfold ct_sample. rewrite Ek. cbn [bind]. rewrite S2. replace (k =? sizeZ (ct_energy t))%Z with false by lia. cbv zeta.
  destruct (Z.eqb_spec k 0) as [->|KP].
  - specialize (K2 0%Z ltac:(lia)). assert (xi = 0) by lra. subst xi. change (0 + 1)%Z with 1%Z. rewrite !atR by lia. cbn [bind]. rewrite C0. rch.
    assert (B1 : getR (ct_cdf t) 0 <= getR (ct_cdf t) 1) by (apply I3; lia). assert (B2 : getR (ct_energy t) 0 <= getR (ct_energy t) 1) by (apply I1; lia).
    assert (Z0 : is_RInt (dens (ct_energy t) (ct_pdf t) (ct_cdf t) LinLin) (getR (ct_energy t) 0) (getR (ct_energy t) 0) 0) by exact (@is_RInt_point R_NormedModule _ _).
    destruct (Reqb_spec (getR (ct_pdf t) 0) (getR (ct_pdf t) 1)).
    + exists (getR (ct_energy t) 0), 0%Z. split; [f_equal; f_equal; unfold Rdiv; ring|]. split; [lia|]. split; [lia|]. change (0 + 1)%Z with 1%Z. split; [lra|]. split; [lra|exact Z0].
    + exists (getR (ct_energy t) 0), 0%Z. split; [|split; [lia|]; split; [lia|]; change (0 + 1)%Z with 1%Z; split; [lra|]; split; [lra|exact Z0]].
      f_equal. f_equal. set (m := (_ - _) / _). unfold nmax. rch. change (@nsqrt R NumR) with sqrt. set (q := getR (ct_pdf t) 0).
      assert (Q : 0 <= q) by (apply I4, getR_In; lia). replace (q * q + 2 * m * (0 - 0)) with (q * q) by ring.
      replace (sqrt (if Rltb 0 (q * q) then q * q else 0)) with q; [ring|]. symmetry. destruct (Rltb_spec 0 (q * q)); [apply sqrt_square, Q|]. assert (q = 0) as -> by nra. apply sqrt_0.
  - assert (A1 : getR (ct_cdf t) (k - 1) < xi) by (apply K1; lia). assert (A2 : xi <= getR (ct_cdf t) k) by (apply K2; lia).
    destruct (seg_sample _ _ _ _ V (k - 1)%Z xi) as (h & Eh & Ih & Bh); [lia|lia|replace (k - 1 + 1)%Z with k by lia; lra|].
    exists h, (k - 1)%Z. split; [|split; [lia|]; split; [lia|]; split; [replace (k - 1 + 1)%Z with k by lia; lra|]; split; [exact Bh|exact Ih]].
    revert Eh. unfold segf. cbn [pc_interp pc_pdfs tbl]. rewrite !(atR (ct_pdf t)) by lia. cbn [bind]. rch.
    destruct (Reqb _ _).
    + unfold pc_histogram. cbn [pc_values pc_pdfs pc_cdf tbl]. rewrite !atR by lia. cbn [bind]. rch. intros Q. injection Q as Q. rewrite Q. reflexivity.
    + unfold pc_linear. cbn [pc_values pc_pdfs pc_cdf tbl]. rewrite !atR by lia. cbn [bind]. rch. change (@nsqrt R NumR) with sqrt. rewrite nmax_comm. intros Q. injection Q as Q. rewrite Q. reflexivity.
Qed.
(** the cosine: always obtained and within [-1,1]; in the bin of the k-th cosine when the interpolation factor is a fraction *)
Lemma smear_ok n row1 row2 f k z ds : (0 < n < 2 ^ 32)%Z -> sizeZ row1 = n -> sizeZ row2 = n -> (0 <= k < n)%Z -> exists mu, @smear R NumR row1 row2 f k n (z :: ds) = Ok (mu, ds).
Proof.
  intros Hn S1 S2 K. unfold smear. rewrite lerp_R by lia. unfold rbind at 1. cbn [rlift bind]. replace (wrap32 (n - 1)) with (n - 1)%Z by (unfold wrap32; rewrite Z.mod_small; lia).
  destruct (Z.eqb_spec k 0), (Z.eqb_spec k (n - 1)); rewrite ?lerp_R by lia; unfold rbind, rlift, draw, rret; cbn [bind]; eexists; reflexivity.
Qed.
Lemma ct_cosine_ok nmu t xi j x z ds : (0 < nmu < 2 ^ 32)%Z -> shape_ct nmu t -> (0 <= j)%Z -> (j + 1 < sizeZ (ct_energy t))%Z -> 0 <= x < 1 ->
  exists k mu, kth nmu x k /\ ct_cosine t nmu xi j (x :: z :: ds) = Ok (mu, ds) /\ -1 <= mu <= 1 /\
    (0 <= z < 1 -> getR (ct_cdf t) j <= xi <= getR (ct_cdf t) (j + 1) ->
      in_cosine_bin (nth (Z.to_nat j) (ct_cos t) []) (nth (Z.to_nat (j + 1)) (ct_cos t) []) ((xi - getR (ct_cdf t) j) / (getR (ct_cdf t) (j + 1) - getR (ct_cdf t) j)) nmu k mu).
Proof.
  intros Hn [I1 I2 I3 I4 S0 S1 S2 S3 RC] J0 J1 X. destruct (trunc_bin nmu x Hn X) as (k & Ek & K). set (c1 := getR (ct_cdf t) j). set (c2 := getR (ct_cdf t) (j + 1)). set (f := (xi - c1) / (c2 - c1)).
  assert (A1 : atZ (ct_cos t) j = Ok (nth (Z.to_nat j) (ct_cos t) [])) by (apply atZ_nth; lia). assert (A2 : atZ (ct_cos t) (j + 1) = Ok (nth (Z.to_nat (j + 1)) (ct_cos t) [])) by (apply atZ_nth; lia).
  pose proof (RC _ (atZ_In _ _ _ A1)) as R1. pose proof (RC _ (atZ_In _ _ _ A2)) as R2. set (row1 := nth (Z.to_nat j) (ct_cos t) []) in *. set (row2 := nth (Z.to_nat (j + 1)) (ct_cos t) []) in *.
  destruct (smear_ok nmu row1 row2 f k z ds Hn (proj1 R1) (proj1 R2) (proj1 K)) as (m & Em).
  exists k, (clamp_mu m). split; [exact K|]. split; [|split; [apply clamp_mu_bounds|]].
  - unfold ct_cosine. unfold rbind at 1. cbn [draw]. unfold rbind at 1. rch. rewrite Ek. cbn [rlift bind]. unfold rbind at 1. rewrite (atR (ct_cdf t) j) by lia. cbn [rlift bind]. unfold rbind at 1.
    rewrite (atR (ct_cdf t) (j + 1)) by lia. cbn [rlift bind]. fold c1 c2 f. unfold rbind at 1. rewrite A1. cbn [rlift bind]. unfold rbind at 1. rewrite A2. cbn [rlift bind]. unfold rbind. rewrite Em. reflexivity.
  - intros Z0 B. fold c1 c2 in B. assert (F : 0 <= f <= 1).
    { unfold f. destruct (Req_dec c1 c2) as [Q|Q]; [replace (xi - c1) with 0 by lra; unfold Rdiv; rewrite Rmult_0_l; lra|]. assert (P : 0 < c2 - c1) by lra.
      split; [apply Rmult_le_pos; [lra|left; apply Rinv_0_lt_compat; lra]|]. apply Rmult_le_reg_r with (c2 - c1); [lra|]. unfold Rdiv. rewrite Rmult_assoc, Rinv_l by lra. lra. }
    destruct (smear_spec nmu row1 row2 f k z ds Hn R1 R2 F (proj1 K) Z0) as (m' & Em' & IB & MB). rewrite Em in Em'. injection Em' as <-. rewrite clamp_mu_id by exact MB. exact IB.
Qed.
Lemma shape_limits d l f : shape_cedc d -> (0 <= l)%Z -> (l + 1 < sizeZ (ce_in d))%Z -> exists t1 t2, atZ (ce_tables d) l = Ok t1 /\ atZ (ce_tables d) (l + 1) = Ok t2 /\
  limits ct_min ct_max (ce_tables d) l f = Ok (let a t := first_of (ct_energy t) in let b t := last_of (ct_energy t) in mkU t1 (a t1) (b t1) t2 (a t2) (b t2) (mix f (a t1) (a t2)) (mix f (b t1) (b t2))).
Proof.
  intros S H1 H2. apply (limits_gen ct_energy ct_min ct_max); auto; [rewrite (sd_size _ S); lia|].
  intros t Ht. apply (sd_tables _ S) in Ht. destruct Ht. lia.
Qed.

(** ** unit-based interpolation *)
Lemma cedc_unit_safe d E xi y x z ds : shape_cedc d -> (2 <= sizeZ (ce_in d))%Z -> (forall t, In t (ce_tables d) -> (2 <= sizeZ (ct_energy t))%Z) -> 0 <= x < 1 ->
  exists mu Eo, cedc_sample_unit d E (xi :: y :: x :: z :: ds) = Ok ((mu, Eo), ds) /\ -1 <= mu <= 1.
Proof.
  intros S N2 NT X. destruct (select_bracket (ce_in d) E (sd_in _ S) N2) as (l & f & Es & (B0 & B1 & _) & F).
  destruct (shape_limits d l f S B0 B1) as (t1 & t2 & A1 & A2 & EL).
  unfold cedc_sample_unit. unfold rbind at 1. rewrite Es. cbn [rlift bind]. unfold rbind at 1. rewrite EL. cbn [rlift bind]. cbv zeta. cbn [u_t1 u_a1 u_b1 u_t2 u_a2 u_b2 u_min u_max].
  unfold rbind at 1. cbn [draw]. unfold rbind at 1. cbn [draw]. rch.
  assert (Q : forall t a b lo hi, In t (ce_tables d) -> exists mu Eo, (rlet! hj := rlift (ct_sample t xi) in
      let '(h, j) := hj in let Eo := unit_base lo hi h a b in rlet! mu := ct_cosine t (ce_nmu d) xi j in rret (mu, Eo)) (x :: z :: ds) = Ok ((mu, Eo), ds) /\ -1 <= mu <= 1).
  { intros t a b lo hi Ht. destruct (ct_shape_ok (ce_nmu d) t xi (sd_tables _ S t Ht) (NT t Ht)) as (h & j & Eh & J0 & J1).
    destruct (ct_cosine_ok (ce_nmu d) t xi j x z ds (sd_nmu _ S) (sd_tables _ S t Ht) J0 J1 X) as (k & mu & _ & Em & MB & _).
    exists mu, (unit_base lo hi h a b). split; [|exact MB]. unfold rbind at 1. rewrite Eh. cbn [rlift bind]. cbv zeta. unfold rbind. rewrite Em. reflexivity. }
  destruct (Rltb f y); apply Q; eapply atZ_In; eassumption.
Qed.
Lemma cedc_unit_spec d E xi y x z ds : shape_cedc d -> (2 <= sizeZ (ce_in d))%Z -> (forall t, In t (ce_tables d) -> valid_ct (ce_nmu d) t) -> 0 <= xi < 1 -> 0 <= x < 1 -> 0 <= z < 1 ->
  exists l f t1 t2 h j k mu Eo, bracket (ce_in d) E l f /\ atZ (ce_tables d) l = Ok t1 /\ atZ (ce_tables d) (l + 1) = Ok t2 /\
    let t := if Rlt_dec f y then t1 else t2 in
    let lo := mix f (first_of (ct_energy t1)) (first_of (ct_energy t2)) in let hi := mix f (last_of (ct_energy t1)) (last_of (ct_energy t2)) in
    cedc_sample_unit d E (xi :: y :: x :: z :: ds) = Ok ((mu, Eo), ds) /\ lo <= Eo <= hi /\ 0 <= Eo /\
    same_fraction Eo lo hi h (first_of (ct_energy t)) (last_of (ct_energy t)) /\
    is_RInt (dens (ct_energy t) (ct_pdf t) (ct_cdf t) LinLin) (first_of (ct_energy t)) h xi /\
    (0 <= j)%Z /\ (j + 1 < sizeZ (ct_energy t))%Z /\ getR (ct_cdf t) j <= xi <= getR (ct_cdf t) (j + 1) /\ kth (ce_nmu d) x k /\
    in_cosine_bin (nth (Z.to_nat j) (ct_cos t) []) (nth (Z.to_nat (j + 1)) (ct_cos t) []) ((xi - getR (ct_cdf t) j) / (getR (ct_cdf t) (j + 1) - getR (ct_cdf t) j)) (ce_nmu d) k mu /\
    -1 <= mu <= 1.
Proof.
  intros S N2 VT XI X Z0. destruct (select_bracket (ce_in d) E (sd_in _ S) N2) as (l & f & Es & B & F). pose proof B as (B0 & B1 & _).
  destruct (shape_limits d l f S B0 B1) as (t1 & t2 & A1 & A2 & EL). set (t := if Rlt_dec f y then t1 else t2).
  assert (Ht1 : In t1 (ce_tables d)) by (eapply atZ_In; eassumption). assert (Ht2 : In t2 (ce_tables d)) by (eapply atZ_In; eassumption).
  assert (Ht : In t (ce_tables d)) by (unfold t; destruct (Rlt_dec f y); assumption).
  destruct (ct_sample_spec (ce_nmu d) t xi (VT t Ht) XI) as (h & j & Eh & J0 & J1 & JC & JE & JI).
  destruct (ct_cosine_ok (ce_nmu d) t xi j x z ds (sd_nmu _ S) (sd_tables _ S t Ht) J0 J1 X) as (k & mu & K & Em & MB & IB).
  pose proof (valid_wide _ _ _ _ (proj2 (VT t1 Ht1))) as W1. pose proof (valid_wide _ _ _ _ (proj2 (VT t2 Ht2))) as W2. pose proof (valid_wide _ _ _ _ (proj2 (VT t Ht))) as Wt.
  set (lo := mix f (first_of (ct_energy t1)) (first_of (ct_energy t2))). set (hi := mix f (last_of (ct_energy t1)) (last_of (ct_energy t2))).
  assert (Hlh : lo <= hi) by (apply mix_le; [exact F|lra|lra]).
  assert (It : increasing (ct_energy t)) by apply (sd_tables _ S t Ht).
  assert (Hr : first_of (ct_energy t) <= h <= last_of (ct_energy t)).
  { unfold first_of, last_of. assert (getR (ct_energy t) 0 <= getR (ct_energy t) j) by (apply It; lia). assert (getR (ct_energy t) (j + 1) <= getR (ct_energy t) (sizeZ (ct_energy t) - 1)) by (apply It; lia). lra. }
  destruct (unit_base_spec lo hi h (first_of (ct_energy t)) (last_of (ct_energy t)) Hlh Wt Hr) as (R1 & R2 & _).
  assert (LO : 0 <= lo).
  { assert (P : forall u, In u (ce_tables d) -> 0 <= first_of (ct_energy u)) by (intros u Hu; pose proof (sd_tables _ S u Hu) as [? P' ? ? ? ? ? ? ?]; apply P', getR_In; lia).
    pose proof (P t1 Ht1). pose proof (P t2 Ht2). unfold lo, mix. nra. }
  exists l, f, t1, t2, h, j, k, mu, (unit_base lo hi h (first_of (ct_energy t)) (last_of (ct_energy t))).
  split; [exact B|]. split; [exact A1|]. split; [exact A2|]. cbv zeta. fold t lo hi. split.
  { unfold cedc_sample_unit. unfold rbind at 1. rewrite Es. cbn [rlift bind]. unfold rbind at 1. rewrite EL. cbn [rlift bind]. cbv zeta. cbn [u_t1 u_a1 u_b1 u_t2 u_a2 u_b2 u_min u_max]. fold lo hi.
    unfold rbind at 1. cbn [draw]. unfold rbind at 1. cbn [draw]. rch. unfold t in *. destruct (Rlt_dec f y) as [C|C]; [rewrite (proj2 (Rltb_true f y) C)|rewrite (proj2 (Rltb_false f y)) by lra];
      unfold rbind at 1; rewrite Eh; cbn [rlift bind]; unfold rbind; rewrite Em; reflexivity. }
  split; [exact R1|]. split; [lra|]. split; [exact R2|]. split; [exact JI|]. split; [exact J0|]. split; [exact J1|]. split; [exact JC|]. split; [exact K|]. split; [apply IB; assumption|exact MB].
Qed.

(** ** the nearest table *)
Lemma cedc_nearest_safe d E xi x z ds : shape_cedc d -> (2 <= sizeZ (ce_in d))%Z -> (forall t, In t (ce_tables d) -> (2 <= sizeZ (ct_energy t))%Z) -> 0 <= x < 1 ->
  exists mu Eo, cedc_sample_nearest d E (xi :: x :: z :: ds) = Ok ((mu, Eo), ds) /\ -1 <= mu <= 1.
Proof.
  intros S N2 NT X. destruct (select_bracket (ce_in d) E (sd_in _ S) N2) as (l & f & Es & (B0 & B1 & _) & F).
  unfold cedc_sample_nearest. unfold rbind at 1. rewrite Es. cbn [rlift bind]. cbv zeta. set (i := if nltb _ f then _ else _).
  assert (Hi : (0 <= i < sizeZ (ce_in d))%Z) by (unfold i; destruct (nltb _ f); lia). clearbody i.
  unfold rbind at 1. cbn [draw]. destruct (atZ_ok (ce_tables d) i) as [t Et]; [rewrite (sd_size _ S); exact Hi|]. assert (Ht : In t (ce_tables d)) by (eapply atZ_In; eassumption).
  unfold rbind at 1. rewrite Et. cbn [rlift bind].
  destruct (ct_shape_ok (ce_nmu d) t xi (sd_tables _ S t Ht) (NT t Ht)) as (h & j & Eh & J0 & J1).
  destruct (ct_cosine_ok (ce_nmu d) t xi j x z ds (sd_nmu _ S) (sd_tables _ S t Ht) J0 J1 X) as (k & mu & _ & Em & MB & _).
  unfold rbind at 1. rewrite Eh. cbn [rlift bind]. unfold rbind at 1. rewrite (atR (ce_in d)) by exact Hi. cbn [rlift bind]. unfold rbind. rewrite Em. eexists mu, _. split; [reflexivity|exact MB].
Qed.
Lemma cedc_nearest_spec d E xi x z ds : shape_cedc d -> (2 <= sizeZ (ce_in d))%Z -> (forall t, In t (ce_tables d) -> valid_ct (ce_nmu d) t) -> 0 <= xi < 1 -> 0 <= x < 1 -> 0 <= z < 1 ->
  exists l f i t h j k mu Eo, bracket (ce_in d) E l f /\ i = nearest_of l f /\ atZ (ce_tables d) i = Ok t /\
    cedc_sample_nearest d E (xi :: x :: z :: ds) = Ok ((mu, Eo), ds) /\
    Eo = shifted h (getR (ce_in d) i) E /\
    first_of (ct_energy t) <= h <= last_of (ct_energy t) /\ is_RInt (dens (ct_energy t) (ct_pdf t) (ct_cdf t) LinLin) (first_of (ct_energy t)) h xi /\
    (0 <= j)%Z /\ (j + 1 < sizeZ (ct_energy t))%Z /\ getR (ct_cdf t) j <= xi <= getR (ct_cdf t) (j + 1) /\ kth (ce_nmu d) x k /\
    in_cosine_bin (nth (Z.to_nat j) (ct_cos t) []) (nth (Z.to_nat (j + 1)) (ct_cos t) []) ((xi - getR (ct_cdf t) j) / (getR (ct_cdf t) (j + 1) - getR (ct_cdf t) j)) (ce_nmu d) k mu /\
    -1 <= mu <= 1 /\ (0 < getR (ce_in d) 0 -> getR (ce_in d) 0 <= 2 * E -> 0 <= Eo).
Proof.
  intros S N2 VT XI X Z0. destruct (select_bracket (ce_in d) E (sd_in _ S) N2) as (l & f & Es & B & F). pose proof B as (B0 & B1 & BC).
  set (i := nearest_of l f). assert (Hi : (0 <= i < sizeZ (ce_in d))%Z) by (unfold i, nearest_of; destruct (Rlt_dec _ f); lia).
  destruct (atZ_ok (ce_tables d) i) as [t Et]; [rewrite (sd_size _ S); exact Hi|]. assert (Ht : In t (ce_tables d)) by (eapply atZ_In; eassumption).
  destruct (ct_sample_spec (ce_nmu d) t xi (VT t Ht) XI) as (h & j & Eh & J0 & J1 & JC & JE & JI).
  destruct (ct_cosine_ok (ce_nmu d) t xi j x z ds (sd_nmu _ S) (sd_tables _ S t Ht) J0 J1 X) as (k & mu & K & Em & MB & IB).
  assert (It : increasing (ct_energy t)) by apply (sd_tables _ S t Ht).
  assert (Hr : first_of (ct_energy t) <= h <= last_of (ct_energy t)).
  { unfold first_of, last_of. assert (getR (ct_energy t) 0 <= getR (ct_energy t) j) by (apply It; lia). assert (getR (ct_energy t) (j + 1) <= getR (ct_energy t) (sizeZ (ct_energy t) - 1)) by (apply It; lia). lra. }
  exists l, f, i, t, h, j, k, mu, (shifted h (getR (ce_in d) i) E).
  split; [exact B|]. split; [reflexivity|]. split; [exact Et|]. split.
  { unfold cedc_sample_nearest. unfold rbind at 1. rewrite Es. cbn [rlift bind]. cbv zeta. replace (if nltb _ f then (l + 1)%Z else l) with i.
    2:{ unfold i, nearest_of, nlit. rch. destruct (Rlt_dec (1 / 2) f) as [C|C]; [rewrite (proj2 (Rltb_true _ f) C)|rewrite (proj2 (Rltb_false _ f)) by lra]; reflexivity. }
    unfold rbind at 1. cbn [draw]. unfold rbind at 1. rewrite Et. cbn [rlift bind]. unfold rbind at 1. rewrite Eh. cbn [rlift bind]. unfold rbind at 1. rewrite (atR (ce_in d)) by exact Hi. cbn [rlift bind].
    unfold rbind. rewrite Em. unfold rret. do 3 f_equal. unfold shifted, nlit. rch.
    destruct (Rlt_dec h (getR (ce_in d) i / 2)) as [C|C]; [rewrite (proj2 (Rltb_true _ _)) by lra|rewrite (proj2 (Rltb_false _ _)) by lra]; reflexivity. }
  split; [reflexivity|]. split; [exact Hr|]. split; [exact JI|]. split; [exact J0|]. split; [exact J1|]. split; [exact JC|]. split; [exact K|]. split; [apply IB; assumption|]. split; [exact MB|].
  intros P0 P1. assert (H0 : 0 <= h). { pose proof (sd_tables _ S t Ht) as [? P' ? ? ? ? ? ? ?]. assert (0 <= first_of (ct_energy t)) by (apply P', getR_In; lia). lra. }
  pose proof (sd_in _ S) as II. assert (PI : getR (ce_in d) 0 <= getR (ce_in d) i) by (apply II; lia).
  assert (M : getR (ce_in d) i <= 2 * E).
  { unfold i, nearest_of in *. assert (getR (ce_in d) 0 <= getR (ce_in d) l) by (apply II; lia). destruct BC as [(C1 & -> & ->)|[(C1 & -> & ->)|(C1 & Ef)]].
    - destruct (Rlt_dec (1 / 2) 0); lra.
    - destruct (Rlt_dec (1 / 2) 1); [|lra]. replace (sizeZ (ce_in d) - 2 + 1)%Z with (sizeZ (ce_in d) - 1)%Z by lia. lra.
    - destruct (Rlt_dec (1 / 2) f) as [C|C]; [|lra]. assert (D : 0 < getR (ce_in d) (l + 1) - getR (ce_in d) l) by lra.
      assert (Q : f * (getR (ce_in d) (l + 1) - getR (ce_in d) l) = E - getR (ce_in d) l) by (rewrite Ef; field; lra). nra. }
  set (e := getR (ce_in d) i) in *. assert (Pe : 0 < e) by lra. unfold shifted. destruct (Rlt_dec h (e / 2)); [|lra].
  apply Rmult_le_pos; [exact H0|]. assert (1 <= 2 * E / e); [|lra]. apply Rmult_le_reg_r with e; [exact Pe|]. unfold Rdiv. rewrite Rmult_assoc, Rinv_l by lra. lra.
Qed.
