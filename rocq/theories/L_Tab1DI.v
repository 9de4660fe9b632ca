(** * Tabulated1D over R: integrals *)
From Coquelicot Require Import Coquelicot.
From Verif Require Import Base NumR M_Interp M_Tab1D S_Interp S_Tab1D L_Search L_SearchR L_Interp L_Interp2 L_Tab1D L_Tab1DR.
From Coq Require Import ZifyBool ZifyNat.
Local Open Scope R_scope.

(** value of a tabulated function as a total function on R *)
Definition tabR (t : tab R) (v : R) : R := match tab_eval t v with Ok w => w | _ => 0 end.

(** every segment either has exact integral data under its law or is a jump at a breakpoint *)
Definition integrable_segments (NBT : list Z) (INT : list interpolation) (x y : list R) : Prop :=
  forall j, (0 <= j)%Z -> (j + 1 < sizeZ x)%Z ->
    (exists i, segment_law NBT INT j = Some i /\
       valid_points i (getR x j) (getR y j) (getR x (j+1)) (getR y (j+1)) /\
       exact_integral_data i (getR x j) (getR y j) (getR x (j+1)) (getR y (j+1))) \/
    (getR x j = getR x (j + 1) /\ In (j + 1)%Z NBT).

Section Integral.
  Variables (x y : list R) (f : R -> R).
  Hypothesis Hx : increasing x.
  Hypothesis Hsz : sizeZ y = sizeZ x.

  (** [seg i j]: on segment j the function is the law i and the law's integral is exact *)
  Definition seg_ok (i : interpolation) (j : Z) : Prop :=
    getR x j < getR x (j + 1) /\
    forall a b, getR x j <= a <= getR x (j + 1) -> getR x j <= b <= getR x (j + 1) ->
      is_RInt f a b (integrate i a b (getR x j) (getR y j) (getR x (j + 1)) (getR y (j + 1))).

  Section OneRange.
    Variables (low hi : Z) (i : interpolation).
    Hypothesis Hlo : (0 <= low < hi)%Z.
    Hypothesis Hhi : (hi <= sizeZ x)%Z.
    Hypothesis Hseg : forall j, (low <= j)%Z -> (j + 1 < hi)%Z -> seg_ok i j.
    Let r := mkRange i (sl x low hi) (sl y low hi).

    Lemma range_loop_RInt fuel : forall k lo xhi acc,
      (0 <= k)%Z -> (low + k + 1 < hi)%Z -> (Z.to_nat (hi - low - k) <= fuel)%nat ->
      getR x (low + k) <= lo <= getR x (low + k + 1) -> lo < xhi -> xhi <= getR x (hi - 1) ->
      exists v, range_integrate_loop fuel r xhi k lo xhi acc = Ok (acc + v) /\ is_RInt f lo xhi v.
    Proof.
      induction fuel as [|fuel IH]; intros k lo xhi acc Hk Hk1 Hf Hin Hlt Hmax; [lia|].
      cbn [range_integrate_loop]. unfold r; cbn [r_x r_y r_interp].
      rewrite !sl_at by lia. replace (low + (k + 1))%Z with (low + k + 1)%Z by lia.
      rewrite !atR by lia. cbn [bind].
      destruct (Hseg (low + k)) as [Hs HI]; [lia | lia |].
      set (x1 := getR x (low + k)) in *. set (x2 := getR x (low + k + 1)) in *.
      change (nltb lo x1) with (Rltb lo x1). change (nltb x2 xhi) with (Rltb x2 xhi).
      replace (Rltb lo x1) with false by (symmetry; apply Rltb_false; lra).
      destruct (Rltb_spec x2 xhi) as [L|L].
      - change (neqb x2 xhi) with (Reqb x2 xhi).
        replace (Reqb x2 xhi) with false by (symmetry; apply Reqb_false; lra).
        assert (low + k + 2 < hi)%Z.
        { destruct (Z_lt_dec (low + k + 2) hi); [assumption|].
          assert (getR x (hi - 1) <= x2) by (apply Hx; lia). lra. }
        destruct (IH (k + 1)%Z x2 xhi
          (nadd acc (integrate i lo x2 x1 (getR y (low + k)) x2 (getR y (low + k + 1))))) as (v & V1 & V2); try lia; try lra.
        + replace (low + (k + 1))%Z with (low + k + 1)%Z by lia. split; [unfold x2; lra|].
          apply Hx; lia.
        + fold r. rewrite V1. eexists; split.
          * rnum. rewrite Rplus_assoc. reflexivity.
          * apply (is_RInt_Chasles f lo x2 xhi); [apply HI; lra | exact V2].
      - change (neqb xhi xhi) with (Reqb xhi xhi).
        replace (Reqb xhi xhi) with true by (symmetry; apply Reqb_true; reflexivity).
        eexists; split; [reflexivity|]. apply HI; lra.
    Qed.

    Lemma range_integrate_RInt a b : getR x low <= a -> a <= b -> b <= getR x (hi - 1) ->
      exists v, range_integrate r a b = Ok v /\ is_RInt f a b v.
    Proof.
      intros Ha Hab Hb. unfold range_integrate.
      change (nltb b a) with (Rltb b a). replace (Rltb b a) with false by (symmetry; apply Rltb_false; lra).
      unfold r. rewrite range_min_R, range_max_R by lia. cbn [bind].
      unfold clamp_low, clamp_hi. set (mn := getR x low) in *. set (mx := getR x (hi - 1)) in *.
      change (@nleb R NumR) with Rleb. change (@neqb R NumR) with Reqb. change (@nltb R NumR) with Rltb.
      assert (E1 : (if Rleb a mn then mn else if Rleb mx a then mx else a) = a).
      { destruct (Rleb_spec a mn); [lra|]. destruct (Rleb_spec mx a); lra. }
      assert (E2 : (if Rleb mx b then mx else if Rleb b mn then mn else b) = b).
      { destruct (Rleb_spec mx b); [lra|]. destruct (Rleb_spec b mn); lra. }
      rewrite E1, E2. destruct (Reqb_spec a b) as [E|E].
      - subst b. exists 0. split; [reflexivity|]. apply (is_RInt_point f a).
      - cbn [r_x].
        destruct (lower_boundR (sl x low hi) a (sl_increasing x low hi ltac:(lia) ltac:(lia) Hx)) as (k & Ek & K1 & K2 & K3).
        rewrite Ek; cbn [bind]. rewrite sl_size in K1 by lia.
        assert (Hk : (k < hi - low)%Z).
        { destruct (Z_lt_dec k (hi - low)); [lia|]. specialize (K2 (hi - low - 1)%Z ltac:(lia)).
          rewrite sl_get in K2 by lia. replace (low + (hi - low - 1))%Z with (hi - 1)%Z in K2 by lia.
          fold mx in K2. lra. }
        rewrite sl_at by lia. rewrite atR by lia. cbn [bind].
        assert (Hak : a <= getR x (low + k)).
        { specialize (K3 k). rewrite sl_size in K3 by lia. specialize (K3 ltac:(lia)). rewrite sl_get in K3 by lia. exact K3. }
        destruct (Rltb_spec a (getR x (low + k))) as [L|L].
        + assert (1 <= k)%Z.
          { destruct (Z_le_dec k 0); [|lia]. assert (k = 0)%Z by lia. subst k.
            rewrite Z.add_0_r in L. fold mn in L. specialize (K2 0%Z).
            assert (getR x low <= a) by (fold mn; lra).
            exfalso. (* x_low <= a < x_low+0 *) unfold mn in *. lra. }
          assert (Hlow : getR x (low + (k - 1)) < a).
          { specialize (K2 (k - 1)%Z ltac:(lia)). rewrite sl_get in K2 by lia. exact K2. }
          destruct (range_loop_RInt (S (length (sl x low hi))) (k - 1)%Z a b 0) as (v & V1 & V2); try lia; try lra.
          * pose proof (sl_size x low hi ltac:(lia) ltac:(lia)) as Z1. unfold sizeZ in Z1. lia.
          * replace (low + (k - 1) + 1)%Z with (low + k)%Z by lia. lra.
          * fold mx; lra.
          * fold r. change (nofZ 0) with 0. rewrite V1. cbn [bind]. exists v.
            split; [rewrite Rplus_0_l; reflexivity | exact V2].
        + assert (Hk1 : (low + k + 1 < hi)%Z).
          { destruct (Z_lt_dec (low + k + 1) hi); [assumption|].
            assert (low + k = hi - 1)%Z as Ek' by lia. rewrite Ek' in L. fold mx in L. lra. }
          destruct (range_loop_RInt (S (length (sl x low hi))) k a b 0) as (v & V1 & V2); try lia; try lra.
          * pose proof (sl_size x low hi ltac:(lia) ltac:(lia)) as Z1. unfold sizeZ in Z1. lia.
          * split; [lra|]. assert (getR x (low + k) <= getR x (low + k + 1)) by (apply Hx; lia). lra.
          * fold mx; lra.
          * fold r. change (nofZ 0) with 0. rewrite V1. cbn [bind]. exists v.
            split; [rewrite Rplus_0_l; reflexivity | exact V2].
    Qed.
  End OneRange.

  (** all regions of a chain have good segments *)
  Inductive good_chain : Z -> list Z -> list interpolation -> list (range R) -> Prop :=
  | good_nil low : good_chain low [] [] []
  | good_cons low hi bps i ints rs low2 :
      (0 <= low < hi)%Z -> (hi <= sizeZ x)%Z -> (forall j, (low <= j)%Z -> (j + 1 < hi)%Z -> seg_ok i j) ->
      (hi - 1 <= low2 <= hi)%Z -> (bps <> [] -> getR x low2 = getR x (hi - 1)) ->
      good_chain low2 bps ints rs ->
      good_chain low (hi :: bps) (i :: ints) (mkRange i (sl x low hi) (sl y low hi) :: rs).

  Lemma regions_loop_RInt low bps ints rs : good_chain low bps ints rs ->
    forall prev lo xhi acc, increasing_to prev bps (sizeZ x) -> bps <> [] ->
    getR x low <= lo -> (match bps with [] => True | hi :: _ => lo <= getR x (hi - 1) end) ->
    lo < xhi -> xhi <= getR x (sizeZ x - 1) ->
    exists v, regions_integrate_loop rs xhi lo xhi acc = Ok (acc + v) /\ is_RInt f lo xhi v.
  Proof.
    intros G. induction G as [|low hi bps i ints rs low2 H1 H2 H3 H4 H5 G IH];
      intros prev lo xhi acc Hinc Hne Hlo Hup Hlt Hmax; [easy|].
    cbn [increasing_to] in Hinc. destruct Hinc as [Hp Hinc].
    cbn [regions_integrate_loop]. rewrite range_min_R, range_max_R by lia. cbn [bind].
    change (@neqb R NumR) with Reqb. change (@nltb R NumR) with Rltb.
    replace (Rltb lo (getR x low)) with false by (symmetry; apply Rltb_false; lra).
    destruct (Rltb_spec (getR x (hi - 1)) xhi) as [L|L].
    - destruct bps as [|b bps].
      { cbn in Hinc. subst hi. lra. }
      destruct (range_integrate_RInt low hi i ltac:(lia) ltac:(lia) H3 lo (getR x (hi - 1))) as (v & V1 & V2); try lra.
      rewrite V1; cbn [bind].
      replace (Reqb (getR x (hi - 1)) xhi) with false by (symmetry; apply Reqb_false; lra).
      specialize (H5 ltac:(discriminate)).
      destruct (IH hi (getR x (hi - 1)) xhi (nadd acc v) Hinc) as (w & W1 & W2); try lra; try discriminate.
      { cbn [increasing_to] in Hinc. apply Hx; try lia.
        destruct Hinc as [Hinc1 Hinc2]. apply increasing_to_le in Hinc2. lia. }
      rewrite W1. exists (v + w). split; [rnum; f_equal; ring|].
      apply (is_RInt_Chasles f lo (getR x (hi - 1)) xhi); assumption.
    - destruct (range_integrate_RInt low hi i ltac:(lia) ltac:(lia) H3 lo xhi) as (v & V1 & V2); try lra.
      rewrite V1; cbn [bind].
      replace (Reqb xhi xhi) with true by (symmetry; apply Reqb_true; reflexivity).
      exists v; split; [reflexivity | exact V2].
  Qed.

  Lemma regions_from_RInt low bps ints rs : good_chain low bps ints rs ->
    forall prev lo xhi, increasing_to prev bps (sizeZ x) -> bps <> [] ->
    getR x low <= lo -> lo < xhi -> xhi <= getR x (sizeZ x - 1) ->
    exists rs' v, regions_from rs lo = Ok rs' /\ regions_integrate_loop rs' xhi lo xhi 0 = Ok v /\ is_RInt f lo xhi v.
  Proof.
    intros G. induction G as [|low hi bps i ints rs low2 H1 H2 H3 H4 H5 G IH];
      intros prev lo xhi Hinc Hne Hlo Hlt Hmax; [easy|].
    pose proof Hinc as [Hp Hinc'].
    cbn [regions_from]. rewrite range_max_R by lia. cbn [bind].
    change (@nltb R NumR) with Rltb.
    destruct (Rltb_spec (getR x (hi - 1)) lo) as [L|L].
    - destruct bps as [|b bps].
      { cbn in Hinc'. subst hi. lra. }
      eapply IH; eauto; [discriminate|]. rewrite H5 by discriminate. lra.
    - destruct (regions_loop_RInt low (hi :: bps) (i :: ints) (mkRange i (sl x low hi) (sl y low hi) :: rs)
        ltac:(econstructor; eauto) prev lo xhi 0 Hinc) as (v & V1 & V2); try lra; try discriminate.
      eexists _, v. split; [reflexivity|]. split; [rewrite V1, Rplus_0_l; reflexivity | exact V2].
  Qed.
End Integral.

(** clamping a limit into the table's domain (specification) *)
Definition clampR (lo hi a : R) : R := Rmax lo (Rmin a hi).

Lemma clampR_cases lo hi a : lo <= hi ->
  (a <= lo /\ clampR lo hi a = lo) \/ (hi <= a /\ clampR lo hi a = hi) \/ (lo <= a <= hi /\ clampR lo hi a = a).
Proof.
  intros H. unfold clampR. destruct (Rle_lt_dec a lo) as [A|A].
  - left; split; [exact A|]. rewrite Rmin_left by lra. apply Rmax_left; lra.
  - right. destruct (Rle_lt_dec hi a) as [B|B].
    + left; split; [exact B|]. rewrite Rmin_right by lra. apply Rmax_right; lra.
    + right; split; [lra|]. rewrite Rmin_left by lra. apply Rmax_right; lra.
Qed.

Lemma clamp_low_R lo hi a : lo <= hi -> clamp_low lo hi a = clampR lo hi a.
Proof.
  intros H. unfold clamp_low. rnum.
  destruct (clampR_cases lo hi a H) as [[A ->]|[[A ->]|[A ->]]];
  destruct (Rleb_spec a lo), (Rleb_spec hi a); lra.
Qed.
Lemma clamp_hi_R lo hi a : lo <= hi -> clamp_hi lo hi a = clampR lo hi a.
Proof.
  intros H. unfold clamp_hi. rnum.
  destruct (clampR_cases lo hi a H) as [[A ->]|[[A ->]|[A ->]]];
  destruct (Rleb_spec a lo), (Rleb_spec hi a); lra.
Qed.
Lemma clampR_in lo hi a : lo <= hi -> lo <= clampR lo hi a <= hi.
Proof. intros H; destruct (clampR_cases lo hi a H) as [[A ->]|[[A ->]|[A ->]]]; lra. Qed.
Lemma clampR_mono lo hi a b : lo <= hi -> a <= b -> clampR lo hi a <= clampR lo hi b.
Proof.
  intros H H'; destruct (clampR_cases lo hi a H) as [[A ->]|[[A ->]|[A ->]]];
  destruct (clampR_cases lo hi b H) as [[B ->]|[[B ->]|[B ->]]]; lra.
Qed.
Lemma clampR_id lo hi a : lo <= a <= hi -> clampR lo hi a = a.
Proof. intros H; destruct (clampR_cases lo hi a ltac:(lra)) as [[A ->]|[[A ->]|[A ->]]]; lra. Qed.

Lemma segment_eval NBT INT x y t : valid_breakpoints NBT (sizeZ x) -> (sizeZ x < 18446744073709551616)%Z ->
  make_tab NBT INT x y = Ok t -> forall j i, (0 <= j)%Z -> (j + 1 < sizeZ x)%Z -> segment_law NBT INT j = Some i ->
  forall v, getR x j < v < getR x (j + 1) ->
  tabR t v = interpolate i v (getR x j) (getR y j) (getR x (j + 1)) (getR y (j + 1)).
Proof.
  intros Hv Big H j i Hj Hj1 Hl v Hin.
  destruct (make_tab_inv _ _ _ _ _ Hv Big H) as (rs & _ & C & Hsz & Hx & Hpos).
  destruct (tab_value _ _ _ _ _ Hv Big H) as (_ & _ & M).
  assert (getR x 0 <= getR x j) by (apply Hx; lia).
  assert (getR x (j + 1) <= getR x (sizeZ x - 1)) by (apply Hx; lia).
  destruct (M v ltac:(lra)) as (w & W & I). unfold tabR. rewrite W.
  destruct I as [(k & K1 & K2 & K3)|(k & i' & K1 & K2 & K3 & K4 & ->)].
  - destruct (Z_le_dec k j).
    + assert (getR x k <= getR x j) by (apply Hx; lia). lra.
    + assert (getR x (j + 1) <= getR x k) by (apply Hx; lia). lra.
  - assert (k = j).
    { destruct (Z.lt_trichotomy k j) as [L|[E|L]]; [|exact E|].
      - assert (getR x (k + 1) <= getR x j) by (apply Hx; lia). lra.
      - assert (getR x (j + 1) <= getR x k) by (apply Hx; lia). lra. }
    subst k. congruence.
Qed.

Lemma chain_good NBT INT x y t : valid_breakpoints NBT (sizeZ x) -> (sizeZ x < 18446744073709551616)%Z ->
  make_tab NBT INT x y = Ok t -> integrable_segments NBT INT x y ->
  forall low bps ints rs, chain x y low bps ints rs ->
  (exists pre ipre, NBT = pre ++ bps /\ INT = ipre ++ ints /\ length pre = length ipre /\
     Forall (fun h => (h <= low)%Z \/
       (h = low + 1)%Z /\ ((low + 1 < sizeZ x)%Z -> getR x low <> getR x (low + 1))) pre) ->
  (forall prev, increasing_to prev bps (sizeZ x) -> (prev - 1 <= low)%Z ->
   Forall (fun h => (prev < h)%Z) bps /\ good_chain x y (tabR t) low bps ints rs).
Proof.
  intros Hv Big H HS low bps ints rs C.
  induction C as [|low hi bps i ints rs low2 H1 H2 H3 H4 H5 C IH]; intros Hpre prev Hinc Hprev.
  - split; constructor.
  - destruct Hinc as [Hp Hinc]. destruct Hpre as (pre & ipre & E1 & E2 & E3 & E4).
    assert (Hl2 : (hi - 1 <= low2 <= hi)%Z) by (destruct H5 as [(-> & _)|(-> & _)]; lia).
    assert (Hpre2 : exists pre ipre, NBT = pre ++ bps /\ INT = ipre ++ ints /\ length pre = length ipre /\
     Forall (fun h => (h <= low2)%Z \/
       (h = low2 + 1)%Z /\ ((low2 + 1 < sizeZ x)%Z -> getR x low2 <> getR x (low2 + 1))) pre).
    { exists (pre ++ [hi]), (ipre ++ [i]). rewrite <- !app_assoc. cbn [app].
      split; [exact E1|]. split; [exact E2|]. split; [rewrite !app_length; cbn; lia|].
      apply Forall_app; split; [|constructor; [|constructor]].
      - eapply Forall_impl; [|exact E4]. cbn. intros h [Hh|[Hh Hh']]; [left; lia|].
        destruct (Z_le_dec h low2); [left; assumption|].
        assert (low2 = low) by lia. subst low2. right; split; [lia | exact Hh'].
      - destruct H5 as [(-> & D)|(-> & _)]; [|left; lia]. right. split; [lia|].
        replace (hi - 1 + 1)%Z with hi by lia. intros Hs.
        destruct D as [D|(a & b & A & B & E)]; [lia|].
        apply atR_inv in A as [A1 ->]. apply atR_inv in B as [B1 ->]. apply Reqb_false in E. exact E. }
    destruct (IH Hpre2 hi Hinc ltac:(lia)) as [F G].
    split.
    { constructor; [exact Hp|]. eapply Forall_impl; [|exact F]. cbn; intros; lia. }
    apply good_cons with (low2 := low2); auto; try lia.
    + intros j J1 J2.
      assert (Hl : segment_law NBT INT j = Some i).
      { rewrite E1, E2. clear - E3 E4 J1 J2. revert ipre E3 E4. induction pre as [|p pre IHp]; intros [|q ipre] E3 E4; try discriminate E3.
        - cbn. replace (j + 1 <? hi)%Z with true by lia. reflexivity.
        - cbn. inversion E4; subst. replace (j + 1 <? p)%Z with false by (destruct H1 as [?|[? _]]; lia).
          apply IHp; [cbn in E3; lia | assumption]. }
      destruct (HS j ltac:(lia) ltac:(lia)) as [(i' & S1 & S2 & S3)|(S1 & S2)].
      * rewrite Hl in S1. injection S1 as <-. split; [destruct S2; assumption|].
        intros a b Ha Hb.
        apply is_RInt_ext with (f := fun v => interpolate i v (getR x j) (getR y j) (getR x (j + 1)) (getR y (j + 1)));
          [|apply integrate_is_RInt; assumption].
        intros v Hvv. symmetry. apply (segment_eval NBT INT x y t Hv Big H j i); try lia; try assumption.
        unfold Rmin, Rmax in Hvv. destruct (Rle_dec a b); lra.
      * exfalso.
        rewrite E1 in S2. apply in_app_or in S2 as [S2|[S2|S2]].
        -- rewrite Forall_forall in E4. destruct (E4 _ S2) as [Q|[Q Q']]; [lia|].
           assert (j = low)%Z by lia. subst j. apply Q'; [lia | exact S1].
        -- lia.
        -- rewrite Forall_forall in F. specialize (F _ S2). cbn in F. lia.
    + intros _. destruct H5 as [(-> & _)|(-> & a & b & A & B & E)]; [reflexivity|].
      apply atR_inv in A as [A1 ->]. apply atR_inv in B as [B1 ->]. apply Reqb_true in E. symmetry; exact E.
Qed.

Lemma tab_integrate_RInt NBT INT x y t : valid_breakpoints NBT (sizeZ x) -> (sizeZ x < 18446744073709551616)%Z ->
  make_tab NBT INT x y = Ok t -> integrable_segments NBT INT x y ->
  forall a b, exists v, tab_integrate t a b = Ok v /\
    is_RInt (tabR t) (clampR (getR x 0) (getR x (sizeZ x - 1)) a) (clampR (getR x 0) (getR x (sizeZ x - 1)) b) v.
Proof.
  intros Hv Big H HS a b.
  destruct (make_tab_inv _ _ _ _ _ Hv Big H) as (rs & Et & C & Hsz & Hx & Hpos).
  pose proof Hv as [Hne Hinc].
  destruct (chain_good NBT INT x y t Hv Big H HS 0 NBT INT rs C) with (prev := 0%Z) as [_ G].
  { exists [], []. repeat split; constructor. }
  { exact Hinc. } { lia. }
  assert (Hends : getR x 0 <= getR x (sizeZ x - 1)) by (apply Hx; lia).
  set (f := tabR t) in *. clearbody f. subst t. unfold tab_integrate; cbn [t_x t_regions].
  rewrite frontR_R, backR_R by lia. cbn [bind].
  rewrite clamp_low_R, clamp_hi_R by assumption.
  set (cl := clampR (getR x 0) (getR x (sizeZ x - 1))).
  change (@nltb R NumR) with Rltb. change (@neqb R NumR) with Reqb.
  assert (M : forall p q, p <= q -> exists v,
     (if Reqb (cl p) (cl q) then Ok #0%num else
      let! rs0 := regions_from rs (cl p) in regions_integrate_loop rs0 (cl q) (cl p) (cl q) #0%num) = Ok v
     /\ is_RInt f (cl p) (cl q) v).
  { intros p q Hpq. pose proof (clampR_mono (getR x 0) (getR x (sizeZ x - 1)) p q Hends Hpq) as M. fold cl in M.
    pose proof (clampR_in _ _ p Hends) as Ip. fold cl in Ip.
    pose proof (clampR_in _ _ q Hends) as Iq. fold cl in Iq.
    destruct (Reqb_spec (cl p) (cl q)) as [E|E].
    - rewrite <- E. exists 0. split; [reflexivity | apply (is_RInt_point f (cl p))].
    - destruct (regions_from_RInt x y f Hx Hsz 0 NBT INT rs G 0 (cl p) (cl q) Hinc Hne) as (rs' & v & V1 & V2 & V3); try lra.
      rewrite V1; cbn [bind]. exists v. split; [exact V2 | exact V3]. }
  destruct (Rltb_spec b a) as [L|L].
  - destruct (M b a ltac:(lra)) as (v & V1 & V2).
    destruct (Reqb (cl b) (cl a)).
    + injection V1 as <-. exists 0. split; [reflexivity|].
      replace 0 with (opp 0) by (unfold opp; cbn; ring). apply (is_RInt_swap f). exact V2.
    + destruct (regions_from rs (cl b)); try discriminate V1. cbn [bind] in *. rewrite V1. cbn [bind].
      exists (- v). split; [reflexivity|]. apply (is_RInt_swap f (cl a) (cl b) v). exact V2.
  - destruct (M a b L) as (v & V1 & V2).
    destruct (Reqb (cl a) (cl b)).
    + exists v. split; assumption.
    + destruct (regions_from rs (cl a)); try discriminate V1. cbn [bind] in *. rewrite V1. cbn [bind].
      exists v. split; [reflexivity | exact V2].
Qed.
