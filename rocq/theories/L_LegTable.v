(** * AngleTable(Legendre): the tabulated expansion is a valid table *)
From Coq Require Import Reals Lra Lia List ZifyBool ZifyNat.
From Verif Require Import Base NumR M_Interp M_Tab1D M_PC M_Legendre M_LegTable S_PC S_Legendre L_Search L_SearchR L_PC L_PCR L_Legendre L_Linearize L_Linearize2.
Import ListNotations.
Local Open Scope R_scope.

Lemma trapezoid_len x : forall p c, x <> [] -> length p = length x -> length (@trapezoid R NumR x p c) = length x.
Proof.
  induction x as [|x0 x IH]; intros p c Hne Hl; [easy|]. destruct p as [|p0 p]; [discriminate|].
  destruct x as [|x1 x]; [reflexivity|]. destruct p as [|p1 p]; [discriminate|].
  change (length (trapezoid (x0 :: x1 :: x) (p0 :: p1 :: p) c)) with
    (S (length (trapezoid (x1 :: x) (p1 :: p) (nlit 1 2 * (p0 + p1) * (x1 - x0) + c)))).
  rewrite IH; [reflexivity | discriminate | cbn in *; lia].
Qed.
Lemma trapezoid_0 x p c : getR (@trapezoid R NumR x p c) 0 = c.
Proof. destruct x as [|? [|]]; destruct p as [|? [|]]; reflexivity. Qed.
Lemma trapezoid_step x : forall p c k, length p = length x -> (0 <= k)%Z -> (k + 1 < sizeZ x)%Z ->
  getR (@trapezoid R NumR x p c) (k + 1) - getR (@trapezoid R NumR x p c) k =
  (getR p k + getR p (k + 1)) / 2 * (getR x (k + 1) - getR x k).
Proof.
  induction x as [|x0 x IH]; intros p c k Hl Hk Hk1; [change (sizeZ []) with 0%Z in Hk1; lia|]. destruct p as [|p0 p]; [discriminate|].
  destruct x as [|x1 x]; [rewrite sizeZ_cons in Hk1; change (sizeZ []) with 0%Z in Hk1; lia|]. destruct p as [|p1 p]; [discriminate|].
  change (trapezoid (x0 :: x1 :: x) (p0 :: p1 :: p) c) with
    (c :: trapezoid (x1 :: x) (p1 :: p) (nlit 1 2 * (p0 + p1) * (x1 - x0) + c)).
  destruct (Z.eq_dec k 0) as [->|Hk0].
  - rewrite getR_cons_S, trapezoid_0 by lia. rnum. change (getR (c :: _) 0) with c. change (getR (p0 :: _) 0) with p0. change (getR (x0 :: _) 0) with x0.
    change (getR (x0 :: x1 :: x) (0 + 1)) with x1. change (getR (p0 :: p1 :: p) (0 + 1)) with p1. field.
  - rewrite (sizeZ_cons x0) in Hk1. assert (E : exists j, (0 <= j)%Z /\ k = (j + 1)%Z) by (exists (k - 1)%Z; lia). destruct E as (j & Hj & ->).
    rewrite (getR_cons_S c _ (j + 1)), (getR_cons_S c _ j), (getR_cons_S p0 _ (j + 1)), (getR_cons_S p0 _ j), (getR_cons_S x0 _ (j + 1)), (getR_cons_S x0 _ j) by lia.
    apply IH; [cbn in *; lia | lia | lia].
Qed.
Lemma hd_get (l : list R) : hd 0 l = getR l 0. Proof. destruct l; reflexivity. Qed.
Lemma last_get (l : list R) : last l 0 = getR l (sizeZ l - 1).
Proof.
  induction l as [|a [|b l] IH]; [reflexivity|reflexivity|]. change (last (a :: b :: l) 0) with (last (b :: l) 0). rewrite IH.
  rewrite (sizeZ_cons a). replace (sizeZ (b :: l) + 1 - 1)%Z with ((sizeZ (b :: l) - 1) + 1)%Z by lia. rewrite getR_cons_S; [reflexivity|].
  rewrite sizeZ_cons. pose proof (sizeZ_nonneg l). lia.
Qed.

Section Build.
  Variable adj : R -> R -> bool.
  Variable fuel : nat.
  Variable d : legd R.
  Let f := @leg_pdf R NumR (lg_a d).
  Let lin tab := linearize_interval adj fuel (-1) 1 f (1 / 1000) = Ok tab.

  Lemma lin_facts tab : lin tab -> increasing (t_x tab) /\ t_y tab = map f (t_x tab) /\ (1 < sizeZ (t_x tab))%Z /\
    getR (t_x tab) 0 = -1 /\ getR (t_x tab) (sizeZ (t_x tab) - 1) = 1 /\
    (forall j, (0 <= j)%Z -> (j + 1 < sizeZ (t_x tab))%Z ->
     adj (getR (t_x tab) j) (getR (t_x tab) (j + 1)) = true \/
     f ((getR (t_x tab) j + getR (t_x tab) (j + 1)) / 2) = 0 \/
     midpoint_within f (1 / 1000) (getR (t_x tab) j) (getR (t_x tab) (j + 1))).
  Proof.
    unfold lin, linearize_interval. intros H. destruct (1 <=~ -1)%num; [discriminate|].
    destruct (linearize_correct adj fuel [-1; 1] f (1 / 1000) tab) as (A & B & C & D & E & F); [discriminate | exact H |].
    rewrite hd_get in D. rewrite last_get in E. split; [exact A|]. split; [exact B|].
    assert (1 < sizeZ (t_x tab))%Z.
    { destruct (t_x tab) as [|u [|v l]] eqn:El.
      - destruct (C (-1) (or_introl eq_refl)).
      - cbn in D, E. lra.
      - rewrite !sizeZ_cons. pose proof (sizeZ_nonneg l). lia. }
    split; [assumption|]. split; [exact D|]. split; [exact E|]. exact F.
  Qed.

  Lemma table_unfold : angle_table_of_legendre adj fuel d =
    (let! tab := linearize_interval adj fuel (-1) 1 f (1 / 1000) in
     let! norm := backR (trapezoid (t_x tab) (t_y tab) 0) in
     make_pc (t_x tab) (map (fun p => p / norm) (t_y tab)) (map (fun c => c / norm) (trapezoid (t_x tab) (t_y tab) 0)) LinLin).
  Proof. unfold angle_table_of_legendre, f. rnum. reflexivity. Qed.

  Definition table_norm tab := getR (@trapezoid R NumR (t_x tab) (t_y tab) 0) (sizeZ (t_x tab) - 1).

  Lemma table_steps t : angle_table_of_legendre adj fuel d = Ok t -> exists tab, lin tab /\
    make_pc (t_x tab) (map (fun p => p / table_norm tab) (t_y tab)) (map (fun c => c / table_norm tab) (trapezoid (t_x tab) (t_y tab) 0)) LinLin = Ok t.
  Proof.
    rewrite table_unfold. intros H. apply bind_ok in H as (tab & L & H). exists tab. split; [exact L|].
    apply bind_ok in H as (norm & B & H). destruct (lin_facts tab L) as (A1 & A2 & A3 & _).
    assert (Ls : sizeZ (trapezoid (t_x tab) (t_y tab) 0) = sizeZ (t_x tab)).
    { unfold sizeZ. rewrite trapezoid_len; [reflexivity| |rewrite A2; apply map_length].
      intros E. rewrite E in A3. cbn in A3. lia. }
    rewrite backR_R in B by lia. rewrite Ls in B. apply Ok_eq in B. subst norm. exact H.
  Qed.

  Lemma table_valid tab : lin tab -> table_norm tab <> 0 -> (forall p, In p (map (fun p => p / table_norm tab) (t_y tab)) -> 0 <= p) ->
    valid_table (t_x tab) (map (fun p => p / table_norm tab) (t_y tab)) (map (fun c => c / table_norm tab) (trapezoid (t_x tab) (t_y tab) 0)) LinLin.
  Proof.
    intros L Hn Hp. destruct (lin_facts tab L) as (A1 & A2 & A3 & A4 & A5 & _).
    assert (Ly : length (t_y tab) = length (t_x tab)) by (rewrite A2; apply map_length).
    assert (Ll : length (trapezoid (t_x tab) (t_y tab) 0) = length (t_x tab)).
    { apply trapezoid_len; [|exact Ly]. intros E. rewrite E in A3. cbn in A3. lia. }
    assert (Ls : sizeZ (trapezoid (t_x tab) (t_y tab) 0) = sizeZ (t_x tab)) by (unfold sizeZ; rewrite Ll; reflexivity).
    assert (Lsy : sizeZ (t_y tab) = sizeZ (t_x tab)) by (unfold sizeZ; rewrite Ly; reflexivity).
    constructor; rewrite ?map_length; auto.
    - lia.
    - rewrite getR_map by lia. rewrite trapezoid_0. unfold Rdiv. ring.
    - unfold sizeZ at 1. rewrite map_length. fold (sizeZ (trapezoid (t_x tab) (t_y tab) 0)). rewrite getR_map by lia. rewrite Ls. fold (table_norm tab). field. exact Hn.
    - intros k Hk Hk1. rewrite !getR_map by lia. cbn [seg_area].
      replace (getR (trapezoid (t_x tab) (t_y tab) 0) (k + 1) / table_norm tab - getR (trapezoid (t_x tab) (t_y tab) 0) k / table_norm tab)
        with ((getR (trapezoid (t_x tab) (t_y tab) 0) (k + 1) - getR (trapezoid (t_x tab) (t_y tab) 0) k) / table_norm tab) by (field; exact Hn).
      rewrite trapezoid_step by (try assumption; lia). field. exact Hn.
  Qed.

  Lemma make_pc_nonneg (v p c : list R) i t : make_pc v p c i = Ok t -> forall q, In q p -> 0 <= q.
  Proof.
    intros H q Hq. pose proof (ac_pos _ _ _ _ _ (make_pc_accepted _ _ _ _ _ H) q Hq) as A. cbn in A. apply Rltb_false in A. exact A.
  Qed.
  Lemma make_pc_last (v p c : list R) i t : make_pc v p c i = Ok t -> getR c (sizeZ c - 1) <> 0.
  Proof.
    unfold make_pc. intros H. do 5 (apply bind_ok in H as (? & _ & H)). apply bind_ok in H as (c' & X & _).
    unfold fix_last in X. apply bind_ok in X as (c0 & E & X). apply atR_inv in E as [_ E]. intros Hz. rewrite E, Hz in X.
    revert X. rnum. replace (Reqb 0 1) with false by (symmetry; apply Reqb_false; lra).
    replace (Rltb (Rabs (0 - 1)) (1 / 10000000)) with false; [discriminate|]. symmetry. apply Rltb_false. rewrite Rabs_left; lra.
  Qed.

  Theorem table_spec t : angle_table_of_legendre adj fuel d = Ok t -> exists norm, norm <> 0 /\
    valid_table (pc_values t) (pc_pdfs t) (pc_cdf t) LinLin /\ make_pc (pc_values t) (pc_pdfs t) (pc_cdf t) LinLin = Ok t /\
    getR (pc_values t) 0 = -1 /\ getR (pc_values t) (sizeZ (pc_values t) - 1) = 1 /\
    (forall k, (0 <= k < sizeZ (pc_values t))%Z -> getR (pc_pdfs t) k = f (getR (pc_values t) k) / norm) /\
    (forall k, (0 <= k)%Z -> (k + 1 < sizeZ (pc_values t))%Z ->
       adj (getR (pc_values t) k) (getR (pc_values t) (k + 1)) = true \/
       f ((getR (pc_values t) k + getR (pc_values t) (k + 1)) / 2) = 0 \/
       midpoint_within f (1 / 1000) (getR (pc_values t) k) (getR (pc_values t) (k + 1))).
  Proof.
    intros H. destruct (table_steps t H) as (tab & L & M). destruct (lin_facts tab L) as (A1 & A2 & A3 & A4 & A5 & A6).
    assert (Ly : length (t_y tab) = length (t_x tab)) by (rewrite A2; apply map_length).
    assert (Lsy : sizeZ (t_y tab) = sizeZ (t_x tab)) by (unfold sizeZ; rewrite Ly; reflexivity).
    assert (Ll : length (trapezoid (t_x tab) (t_y tab) 0) = length (t_x tab)).
    { apply trapezoid_len; [|exact Ly]. intros E. rewrite E in A3. cbn in A3. lia. }
    assert (Ls : sizeZ (trapezoid (t_x tab) (t_y tab) 0) = sizeZ (t_x tab)) by (unfold sizeZ; rewrite Ll; reflexivity).
    assert (Hn : table_norm tab <> 0).
    { intros Z. apply make_pc_last in M. apply M. unfold sizeZ. rewrite map_length. fold (sizeZ (trapezoid (t_x tab) (t_y tab) 0)).
      rewrite getR_map by lia. rewrite Ls. fold (table_norm tab). rewrite Z. unfold Rdiv. ring. }
    pose proof (table_valid tab L Hn (make_pc_nonneg _ _ _ _ _ M)) as V.
    rewrite (valid_accepted _ _ _ _ V) in M. injection M as <-. unfold tbl. cbn [pc_values pc_pdfs pc_cdf].
    exists (table_norm tab). split; [exact Hn|]. split; [exact V|]. split; [exact (valid_accepted _ _ _ _ V)|].
    split; [exact A4|]. split; [exact A5|]. split; [|exact A6].
    intros k Hk. rewrite getR_map by lia. rewrite A2 at 1. rewrite getR_map by lia. reflexivity.
  Qed.

  Lemma trapezoid_nonneg (x p : list R) : increasing x -> length p = length x -> (forall q, In q p -> 0 <= q) ->
    forall n, (Z.of_nat n < sizeZ x)%Z -> 0 <= getR (@trapezoid R NumR x p 0) (Z.of_nat n).
  Proof.
    intros I Hl Hp. assert (Ls : sizeZ p = sizeZ x) by (unfold sizeZ; congruence).
    induction n as [|n IH]; intros Hn; [rewrite trapezoid_0; lra|].
    replace (Z.of_nat (S n)) with (Z.of_nat n + 1)%Z in * by lia. pose proof (trapezoid_step x p 0 (Z.of_nat n) Hl ltac:(lia) ltac:(lia)) as S.
    specialize (IH ltac:(lia)). pose proof (Hp _ (getR_In p (Z.of_nat n) ltac:(lia))). pose proof (Hp _ (getR_In p (Z.of_nat n + 1) ltac:(lia))).
    pose proof (I (Z.of_nat n) (Z.of_nat n + 1)%Z ltac:(lia) ltac:(lia) ltac:(lia)). nra.
  Qed.
  Lemma trapezoid_mono (x p : list R) : increasing x -> length p = length x -> (forall q, In q p -> 0 <= q) ->
    forall n k, (0 <= k)%Z -> (k + Z.of_nat n < sizeZ x)%Z -> getR (@trapezoid R NumR x p 0) k <= getR (@trapezoid R NumR x p 0) (k + Z.of_nat n).
  Proof.
    intros I Hl Hp. assert (Ls : sizeZ p = sizeZ x) by (unfold sizeZ; congruence).
    induction n as [|n IH]; intros k Hk Hn; [rewrite Z.add_0_r; lra|].
    replace (k + Z.of_nat (S n))%Z with (k + Z.of_nat n + 1)%Z in * by lia.
    pose proof (trapezoid_step x p 0 (k + Z.of_nat n) Hl ltac:(lia) ltac:(lia)) as S.
    specialize (IH k Hk ltac:(lia)). pose proof (Hp _ (getR_In p (k + Z.of_nat n) ltac:(lia))). pose proof (Hp _ (getR_In p (k + Z.of_nat n + 1) ltac:(lia))).
    pose proof (I (k + Z.of_nat n)%Z (k + Z.of_nat n + 1)%Z ltac:(lia) ltac:(lia) ltac:(lia)). nra.
  Qed.

  Lemma cdf_positive tab : lin tab -> (forall q, In q (t_y tab) -> 0 <= q) -> 0 < f (-1) ->
    forall n, (Z.of_nat n < sizeZ (t_x tab))%Z -> getR (t_x tab) (Z.of_nat n) = -1 \/ 0 < getR (@trapezoid R NumR (t_x tab) (t_y tab) 0) (Z.of_nat n).
  Proof.
    intros L Hq Hf. destruct (lin_facts tab L) as (A1 & A2 & A3 & A4 & A5 & A6).
    assert (Ly : length (t_y tab) = length (t_x tab)) by (rewrite A2; apply map_length).
    assert (Lsy : sizeZ (t_y tab) = sizeZ (t_x tab)) by (unfold sizeZ; rewrite Ly; reflexivity).
    induction n as [|n IH]; intros Hn; [left; exact A4|].
    replace (Z.of_nat (S n)) with (Z.of_nat n + 1)%Z in * by lia.
    pose proof (trapezoid_step (t_x tab) (t_y tab) 0 (Z.of_nat n) Ly ltac:(lia) ltac:(lia)) as S.
    pose proof (trapezoid_nonneg (t_x tab) (t_y tab) A1 Ly Hq n ltac:(lia)) as P0.
    specialize (IH ltac:(lia)). pose proof (Hq _ (getR_In (t_y tab) (Z.of_nat n) ltac:(lia))) as Q1. pose proof (Hq _ (getR_In (t_y tab) (Z.of_nat n + 1) ltac:(lia))) as Q2.
    pose proof (A1 (Z.of_nat n) (Z.of_nat n + 1)%Z ltac:(lia) ltac:(lia) ltac:(lia)) as G.
    destruct IH as [E|P]; [|right; nra].
    destruct (Req_dec (getR (t_x tab) (Z.of_nat n + 1)) (-1)) as [E'|E']; [left; exact E'|right].
    assert (F : getR (t_y tab) (Z.of_nat n) = f (-1)) by (rewrite A2, getR_map, E by lia; reflexivity). rewrite F in *. nra.
  Qed.

  (** a nonnegative expansion that is positive at mu = -1 is always tabulated (once linearize returns) *)
  Theorem table_total tab : linearize_interval adj fuel (-1) 1 f (1 / 1000) = Ok tab ->
    (forall mu, -1 <= mu <= 1 -> 0 <= f mu) -> 0 < f (-1) -> exists t, angle_table_of_legendre adj fuel d = Ok t.
  Proof.
    intros L Hf H1. destruct (lin_facts tab L) as (A1 & A2 & A3 & A4 & A5 & A6).
    assert (Ly : length (t_y tab) = length (t_x tab)) by (rewrite A2; apply map_length).
    assert (Hq : forall q, In q (t_y tab) -> 0 <= q).
    { rewrite A2. intros q Hq. apply in_map_iff in Hq as (m & <- & Hm). apply Hf. apply In_getR in Hm as (i & Hi & ->).
      rewrite <- A4 at 1. rewrite <- A5. split; apply A1; lia. }
    assert (Hn : 0 < table_norm tab).
    { destruct (cdf_positive tab L Hq H1 (Z.to_nat (sizeZ (t_x tab) - 1)) ltac:(lia)) as [E|E]; rewrite Z2Nat.id in E by lia; [lra|exact E]. }
    assert (Ll : length (trapezoid (t_x tab) (t_y tab) 0) = length (t_x tab)).
    { apply trapezoid_len; [|exact Ly]. intros E. rewrite E in A3. cbn in A3. lia. }
    assert (Ls : sizeZ (trapezoid (t_x tab) (t_y tab) 0) = sizeZ (t_x tab)) by (unfold sizeZ; rewrite Ll; reflexivity).
    rewrite table_unfold. rewrite L. cbn [bind]. rewrite backR_R by lia. rewrite Ls. cbn [bind]. fold (table_norm tab).
    eexists. apply valid_accepted. apply table_valid; [exact L|lra|].
    intros p Hp. apply in_map_iff in Hp as (q & <- & Hin). apply Hq in Hin. apply Rmult_le_pos; [exact Hin|]. left. apply Rinv_0_lt_compat. exact Hn.
  Qed.
End Build.

(** the linear expansion 1/2 + 3/8 mu *)
Lemma linear_example : exists d tab, @make_leg R NumR [1/4] = Ok d /\ linearize_interval (fun _ _ => false) 2 (-1) 1 (leg_pdf (lg_a d)) (1 / 1000) = Ok tab /\
  (forall mu, -1 <= mu <= 1 -> 0 <= leg_pdf (lg_a d) mu) /\ 0 < leg_pdf (lg_a d) (-1).
Proof.
  destruct leg_example as [d E]. exists d. pose proof (make_leg_pdf _ _ E) as F.
  assert (G : forall mu, leg_pdf (lg_a d) mu = 1 / 2 + 3 / 8 * mu).
  { intros mu. rewrite F. cbn [series]. rewrite P_0, P_1. cbn [INR]. field. }
  set (f := leg_pdf (lg_a d)) in *.
  assert (L : linearize_loop (fun _ _ => false) 2 f (1 / 1000) [-1; 1] (map f [-1; 1]) 0 = Ok ([-1; 1], map f [-1; 1])).
  { change [-1; 1] with ([] ++ [-1; 1]) at 1 2. change 0%Z with (sizeZ (@nil R)). rewrite loop_step.
    assert (E0 : rel f (-1) 1 = 0). { unfold rel. rewrite !G. match goal with |- Rabs ?e = 0 => replace e with 0 by field end. apply Rabs_R0. }
    rewrite E0. replace (Rltb (1 / 1000) 0) with false by (symmetry; apply Rltb_false; lra).
    change ([] ++ [-1; 1]) with ([-1] ++ [1]). change (sizeZ (@nil R) + 1)%Z with (sizeZ [-1]). rewrite loop_end. reflexivity. }
  unfold linearize_interval, linearize. replace (@nleb R NumR 1 (-1)) with false by (symmetry; apply Rleb_false; lra).
  assert (So : is_sorted [-1; 1] = true) by (cbn; rdec; reflexivity).
  eexists. split; [exact E|]. split.
  - unfold guard. cbn [length Nat.eqb]. rewrite So. cbn [bind]. change [f (-1); f 1] with (map f [-1; 1]). rewrite L. cbn [bind fst snd].
    unfold make_tab1, guard. rewrite map_length, Nat.eqb_refl, So. cbn [bind]. change (slice [-1; 1] 0 _) with (Ok [-1; 1]). change (slice (map f [-1; 1]) 0 _) with (Ok (map f [-1; 1])). cbn [bind].
    unfold make_range, guard. rewrite map_length, Nat.eqb_refl, So. cbn. unfold guard. rdec. cbn. reflexivity.
  - split; intros; rewrite G; lra.
Qed.
