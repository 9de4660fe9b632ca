(** * linearize: the result as a table *)
From Verif Require Import Base NumR NumF M_Interp M_Tab1D S_Interp S_Tab1D L_Search L_SearchR L_Interp L_InterpF L_Tab1D L_Tab1DR L_Tab1DI
  L_Tab1DP L_Linearize.
From Coq Require Import ZifyBool ZifyNat.
Local Open Scope R_scope.

(** the one-law constructor is the general one with the single breakpoint NBT = {n} *)
Lemma make_tab1_eq i (x y : list R) : (sizeZ x < 4294967296)%Z ->
  make_tab1 i x y = make_tab [sizeZ x] [i] x y.
Proof.
  intros Big. unfold make_tab1, make_tab, guard. cbn [length Nat.eqb bind].
  destruct (Nat.eqb (length x) (length y)) eqn:E; cbn [bind]; [|reflexivity].
  destruct (is_sorted x); cbn [bind]; [|reflexivity].
  pose proof (sizeZ_nonneg x). rewrite Z.mod_small by lia.
  cbn [make_regions].
  destruct (slice x 0 (sizeZ x)) as [xs| | |] eqn:Sx; cbn [bind]; try reflexivity.
  destruct (slice y 0 (sizeZ x)) as [ys| | |] eqn:Sy; cbn [bind]; try reflexivity.
  destruct (make_range i xs ys) as [r| | |] eqn:Er; cbn [bind]; try reflexivity.
  replace (wrap64 (sizeZ x - 1) <? wrap64 (sizeZ x - 1))%Z with false by lia. cbn [bind]. reflexivity.
Qed.

Lemma steps_get Q l : steps Q l <-> (forall j, (0 <= j)%Z -> (j + 1 < sizeZ l)%Z -> Q (getR l j) (getR l (j + 1))).
Proof.
  induction l as [|a l IH].
  - split; [|easy]. intros _ j Hj Hj1. unfold sizeZ in Hj1; cbn in Hj1; lia.
  - destruct l as [|b l].
    + split; [|easy]. intros _ j Hj Hj1. unfold sizeZ in Hj1; cbn in Hj1; lia.
    + rewrite steps_cons2, IH. split.
      * intros [H1 H2] j Hj Hj1. destruct (Z.eq_dec j 0) as [->|Hn]; [exact H1|].
        rewrite (getR_cons_S a (b :: l) j) by lia. specialize (H2 (j - 1)%Z ltac:(lia) ltac:(rewrite sizeZ_cons in Hj1; lia)).
        replace (getR (a :: b :: l) j) with (getR (b :: l) (j - 1)); [replace j with (j - 1 + 1)%Z at 2 by lia; exact H2|].
        rewrite <- (getR_cons_S a) by lia. f_equal; lia.
      * intros H. split; [apply (H 0%Z); [lia|]; rewrite !sizeZ_cons; pose proof (sizeZ_nonneg l); lia|].
        intros j Hj Hj1. specialize (H (j + 1)%Z ltac:(lia) ltac:(rewrite (sizeZ_cons a); lia)).
        rewrite (getR_cons_S a (b :: l) j), (getR_cons_S a (b :: l) (j + 1)) in H by lia. exact H.
Qed.
Lemma steps_increasing l : steps Rle l <-> increasing l.
Proof.
  rewrite steps_get. split.
  - intros H i j Hi Hij. revert j Hij. apply (Zlt_lower_bound_ind (fun j => (j < sizeZ l)%Z -> getR l i <= getR l j) i).
    intros j IH Hij Hj. destruct (Z.eq_dec i j) as [->|]; [lra|].
    specialize (IH (j - 1)%Z ltac:(lia) ltac:(lia)). specialize (H (j - 1)%Z ltac:(lia) ltac:(lia)).
    replace (j - 1 + 1)%Z with j in H by lia. lra.
  - intros H j Hj Hj1. apply H; lia.
Qed.

Lemma getR_map (f : R -> R) l j : (0 <= j < sizeZ l)%Z -> getR (map f l) j = f (getR l j).
Proof.
  intros H. unfold getR. rewrite nth_indep with (d' := f 0) by (rewrite map_length; unfold sizeZ in H; lia).
  apply map_nth.
Qed.

Lemma make_tab1_data i (x y : list R) t : make_tab1 i x y = Ok t -> t_x t = x /\ t_y t = y.
Proof.
  unfold make_tab1. intros H.
  repeat (apply bind_ok in H as (? & ? & H)). injection H as <-. split; reflexivity.
Qed.

(** relative error of the chord of [f] over [a,b] at the midpoint is within [tol] *)
Definition midpoint_within (f : R -> R) (tol a b : R) : Prop :=
  Rabs ((f a + f b) / 2 - f ((a + b) / 2)) <= tol * Rabs (f ((a + b) / 2)).

Lemma rel_within f tol a b : f ((a + b) / 2) <> 0 -> rel f a b <= tol -> midpoint_within f tol a b.
Proof.
  unfold rel, midpoint_within. replace (1 / 2 * (a + b)) with ((a + b) / 2) by field.
  intros Hn H. unfold Rdiv at 1 in H. rewrite Rabs_mult, Rabs_inv in H.
  assert (0 < Rabs (f ((a + b) / 2))) as Hp by (apply Rabs_pos_lt; exact Hn).
  apply Rmult_le_compat_r with (r := Rabs (f ((a + b) / 2))) in H; [|lra].
  rewrite Rmult_assoc, Rinv_l, Rmult_1_r in H by lra.
  replace ((f a + f b) / 2) with (1 / 2 * (f a + f b)) by field. exact H.
Qed.

Lemma linearize_correct adj fuel ix f tol t : ix <> [] ->
  linearize adj fuel ix (map f ix) f tol = Ok t ->
  increasing (t_x t) /\ t_y t = map f (t_x t) /\ (forall v, In v ix -> In v (t_x t)) /\
  hd 0 (t_x t) = hd 0 ix /\ last (t_x t) 0 = last ix 0 /\
  (forall j, (0 <= j)%Z -> (j + 1 < sizeZ (t_x t))%Z ->
     adj (getR (t_x t) j) (getR (t_x t) (j + 1)) = true \/
     f ((getR (t_x t) j + getR (t_x t) (j + 1)) / 2) = 0 \/
     midpoint_within f tol (getR (t_x t) j) (getR (t_x t) (j + 1))).
Proof.
  intros Hne H. unfold linearize in H.
  apply bind_ok in H as (? & _ & H). apply bind_ok in H as (? & Hs & H).
  unfold guard in Hs. destruct (is_sorted ix) eqn:Es; [|discriminate]. apply is_sorted_increasing in Es.
  apply bind_ok in H as ([x' y'] & Hl & H). apply make_tab1_data in H as [H1 H2]. cbn [fst snd] in *.
  destruct ix as [|a q]; [easy|].
  apply (loop_correct adj f tol fuel [] a q) in Hl; [|apply steps_increasing; exact Es | exact I].
  destruct Hl as (-> & L1 & L2 & L3 & r & L4 & L5). rewrite H1, H2.
  split; [apply steps_increasing; exact L1|]. split; [reflexivity|]. split; [exact L3|].
  rewrite L4. split; [reflexivity|]. split; [exact L5|].
  rewrite <- L4. intros j Hj Hj1. rewrite steps_get in L2. destruct (L2 j Hj Hj1) as [A|A]; [left; exact A|].
  destruct (Req_dec (f ((getR x' j + getR x' (j + 1)) / 2)) 0) as [Z|Z]; [right; left; exact Z|].
  right; right. apply rel_within; assumption.
Qed.

(** the linearized table at the midpoint of each of its intervals *)
Lemma linearize_eval adj fuel ix f tol t : ix <> [] ->
  linearize adj fuel ix (map f ix) f tol = Ok t -> (sizeZ (t_x t) < 4294967296)%Z ->
  forall j v, (0 <= j)%Z -> (j + 1 < sizeZ (t_x t))%Z -> getR (t_x t) j < v < getR (t_x t) (j + 1) ->
  exists w, tab_eval t v = Ok w /\
  w = f (getR (t_x t) j) + (f (getR (t_x t) (j + 1)) - f (getR (t_x t) j)) *
        ((v - getR (t_x t) j) / (getR (t_x t) (j + 1) - getR (t_x t) j)).
Proof.
  intros Hne H Hsz j v Hj Hj1 Hv.
  destruct (linearize_correct _ _ _ _ _ _ Hne H) as (_ & Hy & _ & _ & _ & _).
  unfold linearize in H.
  apply bind_ok in H as (? & _ & H). apply bind_ok in H as (? & _ & H).
  apply bind_ok in H as ([x' y'] & _ & H). cbn [fst snd] in H.
  pose proof (make_tab1_data _ _ _ _ H) as [D1 D2]. rewrite Hy in D2. rewrite D1 in *. subst y'.
  rewrite make_tab1_eq in H by assumption.
  assert (Hvb : valid_breakpoints [sizeZ x'] (sizeZ x')) by (split; [discriminate | cbn; split; lia]).
  assert (Hl : segment_law [sizeZ x'] [LinLin] j = Some LinLin)
    by (cbn; replace (j + 1 <? sizeZ x')%Z with true by lia; reflexivity).
  pose proof (segment_eval _ _ _ _ _ Hvb ltac:(lia) H j LinLin Hj Hj1 Hl v Hv) as E.
  pose proof (tab_eval_safe _ NumR_order _ _ _ _ _ v Hvb ltac:(lia) (ForallTrue _) I H) as [w W].
  exists w; split; [exact W|]. unfold tabR in E. rewrite W in E. rewrite E.
  rewrite !getR_map by lia. unfold interpolate, linlin_interpolate. rnum. field; lra.
Qed.

Lemma linearize_terminates adj eps f tol : 0 < eps -> (forall a b, 0 <= b - a <= eps -> adj a b = true) ->
  forall ix, ix <> [] -> exists n, forall m,
   linearize adj (n + m) ix (map f ix) f tol <> NoDraw /\ linearize adj (n + m) ix (map f ix) f tol <> UB.
Proof.
  intros He Ha ix Hne. destruct ix as [|a q]; [easy|].
  destruct (is_sorted (a :: q)) eqn:Es.
  - destruct (loop_terminates adj f tol eps He Ha q [] a) as (n & x' & y' & H).
    { apply steps_increasing, is_sorted_increasing, Es. }
    exists n. intros m. unfold linearize, guard. rewrite map_length, Nat.eqb_refl, Es. cbn [bind].
    specialize (H m). cbn [app] in H. change (sizeZ []) with 0%Z in H. rewrite H. cbn [bind fst snd].
    unfold make_tab1, guard. destruct (Nat.eqb (length x') (length y')) eqn:El; cbn [bind]; [|split; discriminate].
    destruct (is_sorted x'); cbn [bind]; [|split; discriminate].
    pose proof (sizeZ_nonneg x').
    assert (0 <= sizeZ x' mod 4294967296 <= sizeZ x')%Z.
    { pose proof (Z.mod_pos_bound (sizeZ x') 4294967296). pose proof (Z.mod_le (sizeZ x') 4294967296). lia. }
    rewrite !slice_ok by (unfold sizeZ in *; lia). cbn [bind].
    match goal with |- context [make_range ?i ?u ?v] =>
      destruct (make_range_cases i u v) as [E|(E & _)]; rewrite E end; cbn [bind]; split; discriminate.
  - exists 0%nat. intros m. unfold linearize, guard. rewrite map_length, Nat.eqb_refl, Es. split; discriminate.
Qed.

Lemma linearize_empty_UB {T} {N : Num T} adj n f (tol : T) : linearize adj (S n) [] [] f tol = UB.
Proof. reflexivity. Qed.

(** a case in which one point is added: f(x)=x^2 on [1,2], tolerance 1/10 *)
Lemma linearize_example : exists t,
  linearize (fun _ _ => false) 5 [1; 2] (map (fun x => x * x) [1; 2]) (fun x => x * x) (1 / 10) = Ok t /\
  t_x t = [1; 1 / 2 * (1 + 2); 2].
Proof.
  unfold linearize, guard. cbn [length map Nat.eqb bind].
  replace (is_sorted [1; 2]) with true.
  2:{ cbn. rdec. reflexivity. }
  cbn [bind].
  set (f := fun x => x * x). set (c := 1 / 2 * (1 + 2)).
  set (L := linearize_loop _ _ _ _ _ _ _).
  assert (E : L = Ok ([1; c; 2], map f [1; c; 2])).
  { subst L. change [1; 2] with ([] ++ 1 :: 2 :: []) at 1. change [1 * 1; 2 * 2] with (map f ([] ++ 1 :: 2 :: [])).
    change 0%Z with (sizeZ (@nil R)). rewrite loop_step. fold c.
    assert (R1 : rel f 1 2 > 1 / 10).
    { unfold rel, f. rewrite Rabs_pos_eq; lra. }
    replace (Rltb (1 / 10) (rel f 1 2)) with true by (symmetry; apply Rltb_true; lra).
    rewrite loop_step.
    assert (R2 : rel f 1 c <= 1 / 10).
    { unfold rel, f, c. rewrite Rabs_pos_eq; lra. }
    replace (Rltb (1 / 10) (rel f 1 c)) with false by (symmetry; apply Rltb_false; lra).
    change ([] ++ [1; c; 2]) with ([1] ++ [c; 2]). change (sizeZ (@nil R) + 1)%Z with (sizeZ [1]).
    rewrite loop_step.
    assert (R3 : rel f c 2 <= 1 / 10).
    { unfold rel, f, c. rewrite Rabs_pos_eq; lra. }
    replace (Rltb (1 / 10) (rel f c 2)) with false by (symmetry; apply Rltb_false; lra).
    change ([1] ++ [c; 2]) with ([1; c] ++ [2]). change (sizeZ [1]%R + 1)%Z with (sizeZ [1; c]).
    rewrite loop_end. reflexivity. }
  rewrite E. cbn [bind fst snd].
  unfold make_tab1, guard. cbn [map length Nat.eqb bind].
  replace (is_sorted [1; c; 2]) with true.
  2:{ unfold c; cbn. rdec. reflexivity. }
  cbn [bind]. change (sizeZ [1; c; 2]%R mod 4294967296)%Z with 3%Z.
  unfold slice. change ((0 <=? 0) && (0 <=? 3) && (3 <=? sizeZ [1; c; 2]%R))%Z%bool with true.
  change ((0 <=? 0) && (0 <=? 3) && (3 <=? sizeZ [f 1; f c; f 2]%R))%Z%bool with true.
  cbn [bind]. change (firstn (Z.to_nat (3 - 0)) (skipn (Z.to_nat 0) [1; c; 2])) with [1; c; 2].
  change (firstn (Z.to_nat (3 - 0)) (skipn (Z.to_nat 0) [f 1; f c; f 2])) with [f 1; f c; f 2].
  unfold make_range, guard, verify_x_grid, verify_y_grid, guard. cbn [length Nat.eqb negb bind].
  replace (is_sorted [1; c; 2]) with true.
  2:{ unfold c; cbn. rdec. reflexivity. }
  cbn [bind]. eexists; split; [reflexivity|]. reflexivity.
Qed.
