(** * Thermal scattering files are decoded as laid out (C99) *)
From Coq Require Import Reals Lra Lia List Permutation ZifyBool ZifyNat.
From Verif Require Import Base NumR L_Search L_SearchR M_Interp M_Tab1D M_Grid M_Ace M_PC L_PC M_Thermal S_Neutron L_Ace L_Laws L_Thermal2 S_ThermalFile.
Import ListNotations.
Local Open Scope R_scope.

Lemma counted_read a i x y : u32 (sizeZ x) -> length y = length x -> holds a i (counted x y) ->
  xss_u32 a i = Ok (sizeZ x) /\ xss_vec a (i + 1) (sizeZ x) = Ok x /\ xss_vec a (i + 1 + sizeZ x) (sizeZ x) = Ok y.
Proof.
  intros U L H. unfold counted in H. pose proof (holds_u32 a i _ _ U H) as E1. apply holds_cons in H as [_ H]. apply holds_app in H as [H1 H2].
  split; [exact E1|]. split; [apply holds_vec, H1|]. apply holds_vec_len; [unfold sizeZ; rewrite L; reflexivity|exact H2].
Qed.
Lemma sorted_true l : increasing l -> is_sorted l = true. Proof. apply is_sorted_increasing. Qed.
Lemma front_cons {A} (x : A) l : frontR (x :: l) = Ok x. Proof. reflexivity. Qed.
Lemma back_in {A} (l : list A) : l <> [] -> exists x, backR l = Ok x /\ In x l.
Proof.
  intros H. destruct (exists_last H) as (l' & x & ->). exists x. split; [|apply in_or_app; right; left; reflexivity].
  unfold backR. replace (sizeZ (l' ++ [x]) - 1)%Z with (sizeZ l' + 0)%Z by (unfold sizeZ; rewrite app_length; cbn; lia).
  rewrite atZ_app_r by lia. replace (sizeZ l' + 0 - sizeZ l')%Z with 0%Z by lia. reflexivity.
Qed.

Lemma coh_read a edges sums : nxs a 4 = 4%Z -> u32 (sizeZ edges) -> length sums = length edges -> edges <> [] ->
  increasing edges -> 0 <= getR edges 0 -> holds a (jxs a 3 - 1) (counted edges sums) -> make_coh a = Ok (mkCoh edges sums).
Proof.
  intros N U L NE I P H. unfold make_coh. rewrite N. cbn [Z.eqb Pos.eqb].
  destruct (counted_read _ _ _ _ U L H) as (E1 & E2 & E3). rewrite E1. cbn [bind]. rewrite E2. cbn [bind]. rewrite E3. cbn [bind].
  rewrite sorted_true by exact I. cbn [guard bind]. destruct edges as [|e l]; [congruence|]. rewrite front_cons. cbn [bind].
  rnum. unfold getR in P. cbn in P. destruct (Rltb_spec e 0); [lra|reflexivity].
Qed.
Lemma coh_reject a edges sums : nxs a 4 = 4%Z -> u32 (sizeZ edges) -> length sums = length edges -> edges <> [] ->
  holds a (jxs a 3 - 1) (counted edges sums) -> ~ increasing edges \/ getR edges 0 < 0 -> make_coh a = Throw.
Proof.
  intros N U L NE H W. unfold make_coh. rewrite N. cbn [Z.eqb Pos.eqb].
  destruct (counted_read _ _ _ _ U L H) as (E1 & E2 & E3). rewrite E1. cbn [bind]. rewrite E2. cbn [bind]. rewrite E3. cbn [bind].
  destruct (is_sorted edges) eqn:Es; cbn [guard bind]; [|reflexivity]. apply is_sorted_increasing in Es. destruct W as [W|W]; [contradiction|].
  destruct edges as [|e l]; [congruence|]. rewrite front_cons. cbn [bind]. rnum. unfold getR in W. cbn in W. destruct (Rltb_spec e 0); [reflexivity|lra].
Qed.

Lemma cosines_read a n : (0 < n)%Z -> forall rows i, Forall (ascending_cosines n) rows -> holds a i (concat rows) -> read_cosines (length rows) a i n = Ok rows.
Proof.
  intros Hn. induction rows as [|row rows IH]; intros i F H; [reflexivity|]. inversion F as [|? ? (S1 & I1 & B1) F']; subst. cbn [length read_cosines concat] in *.
  apply holds_app in H as [H1 H2]. rewrite (holds_vec a i row H1). cbn [bind]. rewrite sorted_true by exact I1. cbn [guard bind].
  assert (NE : row <> []) by (intros ->; cbn in *; lia). destruct (back_in row NE) as (x & Ex & Ix). rewrite Forall_forall in B1. pose proof (B1 _ Ix).
  assert (F0 : exists c, frontR row = Ok c /\ In c row). { destruct row; [congruence|]. eexists. split; [reflexivity|left; reflexivity]. }
  destruct F0 as (c & Ec & Ic). pose proof (B1 _ Ic). rewrite Ec. cbn [bind]. rnum. destruct (Rltb_spec c (Ropp 1)) as [|_]; [lra|]. rewrite Ex. cbn [bind].
  destruct (Rltb_spec 1 x) as [|_]; [lra|]. rewrite IH by assumption. reflexivity.
Qed.
Lemma inco_read a energy xs rows n t : nxs a 4 <> 4%Z -> jxs a 3 <> 0%Z -> u32 (sizeZ energy) -> length xs = length energy -> Forall (fun v => 0 <= v) xs ->
  make_tab1 LinLin energy xs = Ok t -> (nxs a 5 + 1 = n)%Z -> (0 < n < 2 ^ 31)%Z -> length rows = length energy -> Forall (ascending_cosines n) rows ->
  holds a (jxs a 3 - 1) (counted energy xs) -> holds a (jxs a 5 - 1) (concat rows) -> make_inco a = Ok (mkInco t n energy rows).
Proof.
  intros N4 J U L P T Nm Bn Lr Fr H Hc. unfold make_inco. replace ((nxs a 4 =? 4) || (jxs a 3 =? 0))%Z%bool with false by lia.
  destruct (counted_read _ _ _ _ U L H) as (E1 & E2 & E3). rewrite E1. cbn [bind]. rewrite E2. cbn [bind]. rewrite E3. cbn [bind].
  replace (existsb _ xs) with false.
  2:{ symmetry. apply not_true_is_false. intros X. apply existsb_exists in X as (v & Iv & X). rewrite Forall_forall in P. apply P in Iv. revert X. rnum. destruct (Rltb_spec v 0); [lra|discriminate]. }
  cbn [negb guard bind]. rewrite T. cbn [bind]. rewrite Nm. replace (wrap32 n) with n by (unfold wrap32; rewrite Z.mod_small by lia; reflexivity).
  replace (Z.to_nat (sizeZ energy)) with (length rows) by (unfold sizeZ; lia). rewrite cosines_read by (assumption || lia). reflexivity.
Qed.

Lemma row_read a n : forall row i rest, Forall (line_ok n) row -> holds a i (concat (map line_block row) ++ rest) ->
  exists j, read_dce_row (length row) a i n = Ok (row, j) /\ holds a j rest.
Proof.
  induction row as [|[E mu] row IH]; intros i rest F H. { exists i. split; [reflexivity|exact H]. }
  inversion F as [|? ? (P & S1 & B) F']; subst x l. cbn [fst snd] in *. cbn [map concat length read_dce_row] in *.
  rewrite <- app_assoc in H. unfold line_block at 1 in H. cbn [fst snd] in H. rewrite <- app_comm_cons in H. apply holds_cons in H as [E1 H]. apply holds_app in H as [H1 H2]. rewrite E1. cbn [bind]. rnum. destruct (Rleb_spec E 0) as [|_]; [lra|].
  rewrite (holds_vec_len _ _ _ _ S1 H1). rewrite S1 in H2. cbn [bind]. replace (existsb _ mu) with false.
  2:{ symmetry. apply not_true_is_false. intros X. apply existsb_exists in X as (v & Iv & X). rewrite Forall_forall in B. apply B in Iv. revert X. rnum. destruct (Rltb_spec v (Ropp 1)), (Rltb_spec 1 v); cbn; try discriminate; lra. }
  cbn [negb guard bind]. idtac. destruct (IH _ rest F' H2) as (j & Ej & Hj). exists j. split; [|exact Hj]. match goal with |- bind ?x _ = _ => change x with (@read_dce_row R NumR (length row) a (i + 1 + n)%Z n) end. rewrite Ej. reflexivity.
Qed.
Lemma lines_read a n m : forall rows i, Forall (fun r => length r = m /\ Forall (line_ok n) r) rows -> holds a i (lines_block rows) -> read_dce (length rows) m a i n = Ok rows.
Proof.
  induction rows as [|row rows IH]; intros i F H; [reflexivity|]. inversion F as [|? ? (L & Fr) F']; subst. unfold lines_block in H. cbn [map concat length read_dce] in *.
  destruct (row_read a n row i _ Fr H) as (j & Ej & Hj). rewrite Ej. cbn [bind]. rewrite (IH j F') by exact Hj. reflexivity.
Qed.
Lemma dce_read a energy xs rows noe nmu (skewed : bool) : nxs a 6 = (if skewed then 1 else 0)%Z -> u32 (sizeZ energy) -> length xs = length energy -> increasing energy ->
  nxs a 3 = noe -> (0 <= noe < 2 ^ 31)%Z -> (skewed = true -> 6 <= noe)%Z -> (nxs a 2 + 1 = nmu)%Z -> (0 <= nmu < 2 ^ 31)%Z ->
  length rows = length energy -> Forall (fun r => sizeZ r = noe /\ Forall (line_ok nmu) r) rows ->
  holds a (jxs a 0 - 1) (counted energy xs) -> holds a (jxs a 2 - 1) (lines_block rows) -> make_dce a = Ok (mkDCE energy rows noe nmu skewed).
Proof.
  intros N6 U L I No Bo Sk Nm Bm Lr Fr H Hl. unfold make_dce. rewrite N6. replace (((if skewed then 1 else 0) =? 0) || ((if skewed then 1 else 0) =? 1))%Z%bool with true by (destruct skewed; reflexivity).
  cbn [guard bind]. replace ((if skewed then 1 else 0) =? 1)%Z with skewed by (destruct skewed; reflexivity).
  destruct (counted_read _ _ _ _ U L H) as (E1 & E2 & _). rewrite E1. cbn [bind]. rewrite E2. cbn [bind]. rewrite sorted_true by exact I. cbn [guard bind].
  rewrite No, Nm. replace (wrap32 noe) with noe by (unfold wrap32; rewrite Z.mod_small by lia; reflexivity). replace (wrap32 nmu) with nmu by (unfold wrap32; rewrite Z.mod_small by lia; reflexivity).
  replace (skewed && (noe <? 6)%Z)%bool with false by (destruct skewed; cbn; [specialize (Sk eq_refl); lia|reflexivity]). cbn [negb guard bind].
  replace (Z.to_nat (sizeZ energy)) with (length rows) by (unfold sizeZ; lia). rewrite lines_read; [reflexivity| |exact Hl].
  eapply Forall_impl; [|exact Fr]. intros r (S1 & S2). split; [unfold sizeZ in S1; lia|exact S2].
Qed.

(** ** continuous tables *)
Definition tup (e : entry) : R * R * R * list R := (en_E e, en_pdf e, en_cdf e, en_mu e).
Definition semi (e e' : entry) : Prop :=
  en_E e' = en_E e /\ (en_pdf e' = en_pdf e \/ en_pdf e < 0 /\ en_pdf e' = 0) /\ en_cdf e' = en_cdf e /\ Permutation (en_mu e) (en_mu e') /\ increasing (en_mu e').
Lemma entries_read a n : (0 < n)%Z -> forall es i, Forall (fun e => sizeZ (en_mu e) = n /\ Forall (fun m => -1 <= m <= 1) (en_mu e)) es -> holds a i (entries_block es) ->
  exists es', Forall2 semi es es' /\ read_entries (length es) a i n = Ok (map tup es').
Proof.
  intros Hn. induction es as [|[E p c mu] es IH]; intros i F H. { exists []. split; [constructor|reflexivity]. }
  inversion F as [|? ? (S1 & B) F']; subst x l. cbn [en_mu] in *. unfold entries_block in H. cbn [map concat entry_block en_E en_pdf en_cdf en_mu app] in H.
  apply holds_cons in H as [E1 H]. apply holds_cons in H as [E2 H]. apply holds_cons in H as [E3 H]. apply holds_app in H as [H1 H2].
  cbn [length read_entries]. rewrite E1. cbn [bind]. rewrite E2. cbn [bind]. replace (i + 2)%Z with (i + 1 + 1)%Z by lia. rewrite E3. cbn [bind].
  replace (i + 1 + 1 + 1)%Z with (i + 3)%Z in H1, H2 by lia. rewrite (holds_vec_len _ _ _ _ S1 H1). rewrite S1 in H2. cbn [bind].
  set (mu' := if is_sorted mu then mu else sort mu). assert (Pm : Permutation mu mu') by (unfold mu'; destruct (is_sorted mu); [reflexivity|apply sort_perm]).
  assert (Im : increasing mu') by (unfold mu'; destruct (is_sorted mu) eqn:X; [apply is_sorted_increasing, X|apply sort_increasing]).
  assert (NE : mu' <> []). { intros X. rewrite X in Pm. apply Permutation_sym, Permutation_nil in Pm. subst mu. cbn in S1. lia. }
  assert (B' : forall m, In m mu' -> -1 <= m <= 1). { intros m Hm. rewrite Forall_forall in B. apply B. apply (Permutation_in _ (Permutation_sym Pm)), Hm. }
  clearbody mu'. destruct (back_in mu' NE) as (x & Ex & Ix). pose proof (B' _ Ix).
  assert (F0 : exists c, frontR mu' = Ok c /\ In c mu'). { destruct mu'; [congruence|]. eexists. split; [reflexivity|left; reflexivity]. }
  destruct F0 as (c0 & Ec & Ic). pose proof (B' _ Ic). rewrite Ec. cbn [bind]. rnum. destruct (Rltb_spec c0 (Ropp 1)) as [|_]; [lra|]. rewrite Ex. cbn [bind].
  destruct (Rltb_spec 1 x) as [|_]; [lra|]. destruct (IH _ F' H2) as (es' & S2 & Er). match goal with |- context [bind ?x _] => change x with (@read_entries R NumR (length es) a (i + 3 + n)%Z n) end. rewrite Er. cbn [bind].
  match goal with |- context [if ?b then 0 else p] => set (bb := b) end.
  assert (Eb : bb = true -> p < 0). { unfold bb. destruct (Rltb_spec p 0); cbn; [lra|discriminate]. }
  exists (mkEntry E (if bb then 0 else p) c mu' :: es'). split; [|reflexivity]. constructor; [|exact S2]. unfold semi. cbn [en_E en_pdf en_cdf en_mu].
  split; [reflexivity|]. split; [|split; [reflexivity|split; assumption]]. destruct bb; [right; split; [auto|reflexivity]|left; reflexivity].
Qed.
Lemma iso_angles_eq n : forall mu dmu, @iso_angles R NumR n mu dmu = map (fun k => mu + INR k * dmu) (seq 0 n).
Proof.
  induction n as [|n IH]; intros mu dmu; [reflexivity|]. cbn [iso_angles seq map]. f_equal; [rnum; cbn; lra|]. rewrite IH, <- seq_shift, map_map. apply map_ext. intros k. rewrite S_INR. rnum. lra.
Qed.
Lemma fix_all es : Forall (fun e => - / 1000000000000000 < en_pdf e) es ->
  forall es', Forall2 semi es es' -> mapR (@fix_pdf R NumR) (map en_pdf es') = Ok (map (fun e => Rmax 0 (en_pdf e)) es).
Proof.
  intros F es' S2. induction S2 as [|e e' es es' (_ & P & _) S2 IH]; [reflexivity|]. inversion F as [|? ? F1 F2]; subst. cbn [map mapR].
  assert (X : @fix_pdf R NumR (en_pdf e') = Ok (Rmax 0 (en_pdf e))).
  { unfold fix_pdf. rnum. destruct P as [->|[P1 ->]].
    - destruct (Rltb_spec (en_pdf e) 0); [|rewrite Rmax_right by lra; reflexivity]. rewrite Rmax_left by lra. rewrite Rabs_left by lra. destruct (Rltb_spec (- en_pdf e) (1 / 1000000000000000)); [reflexivity|lra].
    - destruct (Rltb_spec 0 0); [lra|]. rewrite Rmax_left by lra. reflexivity. }
  rewrite X. cbn [bind]. rewrite IH by assumption. reflexivity.
Qed.
Lemma Forall2_map_eq {A B} (f g : A -> B) l l' : Forall2 (fun x y => f y = g x) l l' -> map f l' = map g l.
Proof. induction 1; cbn; congruence. Qed.
Lemma increasing_cons0 l : increasing l -> Forall (fun x => 0 <= x) l -> increasing (0 :: l).
Proof.
  intros I F. apply is_sorted_increasing. apply sorted_true in I. destruct l as [|x l]; [reflexivity|]. cbn [is_sorted] in *. rewrite I. inversion F; subst. rnum.
  destruct (Rltb_spec x 0); [lra|reflexivity].
Qed.
Lemma first_least es : increasing (map en_cdf es) -> 0 < first_cdf es -> Forall (fun x => 0 <= x) (map en_cdf es).
Proof.
  intros I P. apply Forall_forall. intros x Hx. destruct es as [|e es]; [destruct Hx|]. cbn [first_cdf] in P.
  apply (In_nth _ _ 0) in Hx as (k & Lk & <-). assert (X : getR (map en_cdf (e :: es)) 0 <= getR (map en_cdf (e :: es)) (Z.of_nat k)) by (apply I; unfold sizeZ; lia).
  unfold getR at 2 in X. rewrite Nat2Z.id in X. change (getR (map en_cdf (e :: es)) 0) with (en_cdf e) in X. lra.
Qed.
Lemma table_read a loc noe n es : (0 < n)%Z -> table_at a n loc noe es -> exists t, make_ctable a loc noe n = Ok t /\ decodes n es t.
Proof.
  intros Hn (U1 & U2 & <- & [NE IE FE IC FP FC] & H). unfold make_ctable. replace (Z.to_nat (sizeZ es)) with (length es) by (unfold sizeZ; lia).
  destruct (entries_read a n Hn es loc FC H) as (es' & S2 & Er). rewrite Er. cbn [bind].
  set (es2 := map (fun e => mkEntry (en_E e) (Rmax 0 (en_pdf e)) (en_cdf e) (en_mu e)) es).
  pose (fin := map (fun ee : entry * entry => mkEntry (en_E (fst ee)) (Rmax 0 (en_pdf (fst ee))) (en_cdf (fst ee)) (en_mu (snd ee))) (combine es es')).
  assert (ME : map en_E es' = map en_E es). { apply Forall2_map_eq. clear - S2. induction S2 as [|x y l l' Hxy S2 IH]; constructor; [apply Hxy|exact IH]. }
  assert (MC : map en_cdf es' = map en_cdf es). { apply Forall2_map_eq. clear - S2. induction S2 as [|x y l l' Hxy S2 IH]; constructor; [apply Hxy|exact IH]. }
  pose proof (fix_all es FP es' S2) as MP.
  assert (CF : Forall2 cleaned es fin /\ map en_E fin = map en_E es /\ map en_cdf fin = map en_cdf es /\ map en_pdf fin = map (fun e => Rmax 0 (en_pdf e)) es /\ map en_mu fin = map en_mu es').
  { unfold fin. clear - S2. induction S2 as [|e e' es es' (A & B & C & D & F) S2 (IH1 & IH2 & IH3 & IH4 & IH5)]; [repeat split; constructor|]. cbn [combine map fst snd en_E en_pdf en_cdf en_mu].
    split; [constructor; [|exact IH1]|]. { unfold cleaned. cbn. auto. } rewrite IH2, IH3, IH4, IH5. auto. }
  destruct CF as (CF & M1 & M2 & M3 & M4). clearbody fin. clear es2.
  assert (Hf : match map tup es' with [] => false | (_, _, c0, _) :: _ => Rltb 0 c0 end = if Rlt_dec 0 (first_cdf es) then true else false).
  { destruct S2 as [|e e' es0 es0' S0 S2]; [congruence|]. cbn [map tup first_cdf]. destruct S0 as (_ & _ & -> & _). destruct (Rltb_spec 0 (en_cdf e)), (Rlt_dec 0 (en_cdf e)); (reflexivity || lra). }
  rnum. rewrite Hf. clear Hf.
  assert (K1 : map (fun e : R * R * R * list R => fst (fst (fst e))) (map tup es') = map en_E es) by (rewrite map_map; exact ME).
  assert (K2 : map (fun e : R * R * R * list R => snd (fst e)) (map tup es') = map en_cdf es) by (rewrite map_map; exact MC).
  assert (K3 : map (fun e : R * R * R * list R => snd (fst (fst e))) (map tup es') = map en_pdf es') by (rewrite map_map; reflexivity).
  assert (K4 : map snd (map tup es') = map en_mu fin) by (rewrite map_map, M4; reflexivity).
  assert (FE' : Forall (fun x => 0 <= x) (map en_E es)) by (apply Forall_map; exact FE).
  assert (FCe : first_cdf fin = first_cdf es). { destruct CF as [|e e' ? ? (_ & _ & X & _)]; [reflexivity|exact X]. }
  destruct (Rlt_dec 0 (first_cdf es)) as [Pf|Pf].
  - cbn [map fst snd]. rewrite K1, K2, K3, K4. rewrite sorted_true by (apply increasing_cons0; assumption). cbn [guard bind]. rewrite front_cons. cbn [bind].
    rnum. destruct (Rltb_spec 0 0) as [|_]; [lra|]. rewrite sorted_true by (apply increasing_cons0; [assumption|apply first_least; assumption]). cbn [guard bind mapR]. assert (Z0 : @fix_pdf R NumR 0 = Ok 0) by (unfold fix_pdf; rnum; destruct (Rltb_spec 0 0); [lra|reflexivity]). fold NumR. rewrite Z0. cbn [bind].
    rewrite MP. cbn [bind]. eexists. split; [reflexivity|]. exists fin. split; [exact CF|]. unfold completed. rewrite FCe. destruct (Rlt_dec 0 (first_cdf es)) as [_|]; [|contradiction].
    unfold table_of. cbn [ct_energy ct_pdf ct_cdf ct_cos map]. rewrite M1, M2, M3. repeat split; auto. f_equal. cbn [zero_entry en_mu].
    rewrite iso_angles_eq. apply map_ext. intros k. rnum. field. apply not_0_IZR. lia.
  - rewrite K1, K2, K3, K4. rewrite sorted_true by assumption. cbn [guard bind].
    assert (F0 : exists x, frontR (map en_E es) = Ok x /\ 0 <= x). { destruct es; [congruence|]. inversion FE; subst. eexists. split; [reflexivity|assumption]. }
    destruct F0 as (x & -> & Px). cbn [bind]. rnum. destruct (Rltb_spec x 0) as [|_]; [lra|]. rewrite sorted_true by assumption. cbn [guard bind]. fold NumR. rewrite MP. cbn [bind].
    eexists. split; [reflexivity|]. exists fin. split; [exact CF|]. unfold completed. rewrite FCe. destruct (Rlt_dec 0 (first_cdf es)) as [|_]; [contradiction|].
    unfold table_of. cbn [ct_energy ct_pdf ct_cdf ct_cos]. rewrite M1, M2, M3. auto.
Qed.
Lemma tables_read a n locs noes tabs : (0 < n)%Z -> tables_at a n locs noes tabs -> exists ts, make_ctables a locs noes n = Ok ts /\ Forall2 (decodes n) tabs ts.
Proof.
  intros Hn. induction 1 as [|loc noe es locs noes tabs TA _ (ts & Et & Ft)]. { exists []. split; [reflexivity|constructor]. }
  destruct (table_read a loc noe n es Hn TA) as (t & E1 & D). exists (t :: ts). cbn [make_ctables]. rewrite E1. cbn [bind]. rewrite Et. split; [reflexivity|constructor; assumption].
Qed.
Lemma tables_at_u32 a n locs noes tabs : tables_at a n locs noes tabs -> Forall u32 locs /\ Forall u32 noes /\ length noes = length locs /\ length tabs = length locs.
Proof. induction 1 as [|loc noe es locs noes tabs (U1 & U2 & _) _ (A & B & C & D)]; [repeat split; constructor|]. cbn. repeat split; try constructor; auto; lia. Qed.
Lemma cedc_read a u energy xs locs noes tabs n : nxs a 6 = 2%Z -> u32 (sizeZ energy) -> length xs = length energy -> increasing energy -> (nxs a 2 - 1 = n)%Z -> (0 < n < 2 ^ 31)%Z ->
  (0 < jxs a 2 <= 2 ^ 31)%Z -> (sizeZ energy < 2 ^ 31)%Z -> length locs = length energy -> tables_at a n locs noes tabs ->
  holds a (jxs a 0 - 1) (counted energy xs) -> holds a (jxs a 2 - 1) (nums locs ++ nums noes) ->
  exists d, make_cedc a u = Ok d /\ ce_in d = energy /\ ce_nmu d = n /\ ce_unit d = u /\ Forall2 (decodes n) tabs (ce_tables d).
Proof.
  intros N6 U L I Nm Bn J Se Ll TA H Hl. destruct (tables_at_u32 _ _ _ _ _ TA) as (F1 & F2 & Ln & Lt). unfold make_cedc. rewrite N6. cbn [Z.eqb Pos.eqb guard bind].
  destruct (counted_read _ _ _ _ U L H) as (E1 & E2 & _). rewrite E1. cbn [bind]. rewrite E2. cbn [bind]. rewrite sorted_true by exact I. cbn [guard bind]. rewrite Nm.
  replace (wrap32 n) with n by (unfold wrap32; rewrite Z.mod_small by lia; reflexivity).
  assert (W : forall z, (0 <= z < 2 ^ 32)%Z -> wrap32 z = z) by (intros z Hz; unfold wrap32; apply Z.mod_small; lia).
  rewrite (W (jxs a 2 - 1)%Z) by lia. unfold u32 in U. rewrite (W (jxs a 2 - 1 + sizeZ energy)%Z) by (unfold sizeZ in *; lia).
  apply holds_app in Hl as [H1 H2]. rewrite sizeZ_nums in H2.
  assert (S1 : sizeZ locs = sizeZ energy) by (unfold sizeZ; lia). assert (S2 : sizeZ noes = sizeZ energy) by (unfold sizeZ; lia).
  pose proof (holds_vec_u32 a locs _ F1 H1) as Q1. pose proof (holds_vec_u32 a noes _ F2 H2) as Q2. rewrite S1 in Q1, Q2. rewrite S2 in Q2. rewrite Q1. cbn [bind]. rewrite Q2. cbn [bind]. destruct (tables_read a n locs noes tabs ltac:(lia) TA) as (ts & Et & Ft). rewrite Et. cbn [bind]. eexists. split; [reflexivity|].
  cbn [ce_in ce_nmu ce_unit ce_tables]. auto.
Qed.
(** the inelastic part as a whole *)
Lemma inin_read a u energy xs t : u32 (sizeZ energy) -> length xs = length energy -> make_tab1 LinLin energy xs = Ok t -> holds a (jxs a 0 - 1) (counted energy xs) ->
  (forall d, (nxs a 6 = 0 \/ nxs a 6 = 1)%Z -> make_dce a = Ok d -> make_inin a u = Ok (mkInin t (AeDiscrete d))) /\
  (forall d, (nxs a 6 = 2)%Z -> make_cedc a u = Ok d -> make_inin a u = Ok (mkInin t (AeContinuous d))) /\
  ((nxs a 6 < 0 \/ 2 < nxs a 6)%Z -> make_inin a u = Throw).
Proof.
  intros U L T H. unfold make_inin. destruct (counted_read _ _ _ _ U L H) as (E1 & E2 & E3). rewrite E1. cbn [bind]. rewrite E2. cbn [bind]. rewrite E3. cbn [bind]. rewrite T. cbn [bind].
  split; [|split].
  - intros d N D. replace ((nxs a 6 =? 0) || (nxs a 6 =? 1))%Z%bool with true by lia. rewrite D. reflexivity.
  - intros d N D. rewrite N. cbn [Z.eqb Pos.eqb orb]. rewrite D. reflexivity.
  - intros N. replace ((nxs a 6 =? 0) || (nxs a 6 =? 1))%Z%bool with false by lia. replace (nxs a 6 =? 2)%Z with false by lia. reflexivity.
Qed.
