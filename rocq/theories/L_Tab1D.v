(** * Tabulated1D: safety and region structure, for any totally ordered numbers *)
From Verif Require Import Base M_Interp M_Tab1D S_Tab1D L_Search.
From Coq Require Import ZifyBool ZifyNat.
Local Open Scope Z_scope.

Definition sl {A} (v : list A) (lo hi : Z) : list A := firstn (Z.to_nat (hi - lo)) (skipn (Z.to_nat lo) v).

Lemma slice_ok {A} (v : list A) lo hi : 0 <= lo <= hi -> hi <= sizeZ v -> slice v lo hi = Ok (sl v lo hi).
Proof. intros. unfold slice. replace (_ && _)%bool with true by lia. reflexivity. Qed.

Lemma sl_size {A} (v : list A) lo hi : 0 <= lo <= hi -> hi <= sizeZ v -> sizeZ (sl v lo hi) = hi - lo.
Proof. intros. unfold sl, sizeZ in *. rewrite firstn_length, skipn_length. lia. Qed.

Lemma nth_error_firstn {A} (v : list A) n k : (k < n)%nat -> nth_error (firstn n v) k = nth_error v k.
Proof.
  revert v k; induction n as [|n IH]; intros v k H; [lia|].
  destruct v as [|a v]; [reflexivity|]. destruct k; [reflexivity|]. cbn. apply IH; lia.
Qed.
Lemma nth_error_skipn {A} (v : list A) n k : nth_error (skipn n v) k = nth_error v (n + k).
Proof.
  revert v; induction n as [|n IH]; intros v; [reflexivity|]. destruct v as [|a v].
  - cbn. destruct k; reflexivity.
  - cbn. apply IH.
Qed.

Lemma sl_at {A} (v : list A) lo hi k : 0 <= lo -> 0 <= k < hi - lo -> atZ (sl v lo hi) k = atZ v (lo + k).
Proof.
  intros. unfold sl, atZ. replace (0 <=? k) with true by lia. replace (0 <=? lo + k) with true by lia.
  rewrite nth_error_firstn by lia. rewrite nth_error_skipn.
  replace (Z.to_nat lo + Z.to_nat k)%nat with (Z.to_nat (lo + k)) by lia. reflexivity.
Qed.

Lemma sl_incl {A} (v : list A) lo hi a : In a (sl v lo hi) -> In a v.
Proof.
  unfold sl. intros H. rewrite <- (firstn_skipn (Z.to_nat lo) v). apply in_or_app; right.
  rewrite <- (firstn_skipn (Z.to_nat (hi - lo)) (skipn (Z.to_nat lo) v)). apply in_or_app; left; exact H.
Qed.

Section Safe.
  Context {T : Type} {N : Num T} (P : T -> Prop) (O : NumOrder N P).

  Lemma make_range_cases i (x y : list T) :
    make_range i x y = Throw \/
    (make_range i x y = Ok (mkRange i x y) /\ length x = length y /\ x <> [] /\ is_sorted x = true).
  Proof.
    unfold make_range, guard.
    destruct (Nat.eqb (length x) (length y)) eqn:E; cbn [bind]; [|left; reflexivity].
    apply Nat.eqb_eq in E.
    destruct x as [|a x]; cbn [length Nat.eqb negb bind]; [left; reflexivity|].
    destruct y as [|b y]; [discriminate E|].
    destruct (is_sorted (a :: x)) eqn:S; cbn [bind]; [|left; reflexivity].
    destruct i; cbn [verify_x_grid verify_y_grid has_sign_change bind];
    repeat match goal with
    | |- context [guard ?b] => destruct b; cbn [guard bind]
    end; try (left; reflexivity); right; repeat split; try assumption; discriminate.
  Qed.

  Lemma range_eval_safe r x : Forall P (r_x r) -> P x -> r_x r <> [] -> length (r_x r) = length (r_y r) ->
    is_sorted (r_x r) = true -> exists v, range_eval r x = Ok v.
  Proof.
    intros F Px Ne L S. unfold range_eval, range_min, range_max, frontR, backR.
    assert (Sz : 0 < sizeZ (r_x r)) by (unfold sizeZ; destruct (r_x r); [easy | cbn [length]; lia]).
    assert (Ly : sizeZ (r_y r) = sizeZ (r_x r)) by (unfold sizeZ; lia).
    destruct (atZ_ok (r_x r) 0) as [mn Hmn]; [lia|]. rewrite Hmn; cbn [bind].
    destruct (atZ_ok (r_x r) (sizeZ (r_x r) - 1)) as [mx Hmx]; [lia|]. rewrite Hmx; cbn [bind].
    destruct (nleb x mn) eqn:C1; [apply atZ_ok; lia|].
    destruct (nleb mx x) eqn:C2; [apply atZ_ok; lia|].
    assert (Pmn : P mn) by (rewrite Forall_forall in F; eauto using atZ_In).
    assert (Pmx : P mx) by (rewrite Forall_forall in F; eauto using atZ_In).
    rewrite (no_leb O) in C1, C2 by assumption. apply negb_false_iff in C1, C2.
    destruct (lower_bound_spec P O (r_x r) x F Px S) as (k & E & K1 & K2 & K3).
    rewrite E; cbn [bind].
    assert (1 <= k) by (destruct (Z_le_dec k 0); [|lia]; specialize (K3 0 mn ltac:(lia) Hmn); congruence).
    assert (k < sizeZ (r_x r)).
    { destruct (Z_lt_dec k (sizeZ (r_x r))); [assumption|].
      specialize (K2 (sizeZ (r_x r) - 1) mx ltac:(lia) Hmx).
      assert (nltb x x = true) by (eapply (no_trans O) with (y := mx); eauto).
      rewrite (no_irrefl O) in H0 by assumption. discriminate. }
    destruct (atZ_ok (r_x r) (k - 1)) as [x1 H1]; [lia|]. rewrite H1; cbn [bind].
    destruct (atZ_ok (r_x r) k) as [x2 H2]; [lia|]. rewrite H2; cbn [bind].
    destruct (atZ_ok (r_y r) (k - 1)) as [y1 H3]; [lia|]. rewrite H3; cbn [bind].
    destruct (atZ_ok (r_y r) (k - 1 + 1)) as [y2 H4]; [lia|]. rewrite H4; cbn [bind]. eauto.
  Qed.

  (** the structure the constructor builds *)
  Inductive chain (x y : list T) : Z -> list Z -> list interpolation -> list (range T) -> Prop :=
  | chain_nil low : chain x y low [] [] []
  | chain_cons low hi bps i ints rs low2 :
      0 <= low -> low < hi -> hi <= sizeZ x ->
      is_sorted (sl x low hi) = true ->
      ((low2 = hi - 1 /\ (hi = sizeZ x \/ exists a b, atZ x (hi - 1) = Ok a /\ atZ x hi = Ok b /\ neqb a b = false)) \/
       (low2 = hi /\ exists a b, atZ x (hi - 1) = Ok a /\ atZ x hi = Ok b /\ neqb a b = true)) ->
      chain x y low2 bps ints rs ->
      chain x y low (hi :: bps) (i :: ints) (mkRange i (sl x low hi) (sl y low hi) :: rs).

  Lemma make_regions_cases (x y : list T) : length x = length y -> sizeZ x < 18446744073709551616 ->
    forall bps ints low prev, length bps = length ints -> 0 <= low <= prev -> increasing_to prev bps (sizeZ x) ->
    make_regions bps ints low x y = Throw \/
    exists rs, make_regions bps ints low x y = Ok rs /\ chain x y low bps ints rs.
  Proof.
    intros L Big. assert (Ly : sizeZ y = sizeZ x) by (unfold sizeZ; lia).
    assert (Hinc : forall bps p n, increasing_to p bps n -> p <= n).
    { induction bps as [|h t IH]; cbn; intros p n H; [lia|]. destruct H as [H1 H2]. apply IH in H2; lia. }
    induction bps as [|hi bps IH]; intros [|i ints] low prev Hl Hlow Hinc'; try discriminate Hl.
    - right; exists []; split; [reflexivity | constructor].
    - cbn [make_regions]. destruct Hinc' as [H1 H2]. pose proof (Hinc _ _ _ H2) as Hhi.
      rewrite (slice_ok x) by lia; cbn [bind]. rewrite (slice_ok y) by lia; cbn [bind].
      destruct (make_range_cases i (sl x low hi) (sl y low hi)) as [E|(E & E1 & E2 & E3)]; rewrite E; cbn [bind].
      + left; reflexivity.
      + unfold wrap64. rewrite !Z.mod_small by lia.
        destruct (hi - 1 <? sizeZ x - 1) eqn:C.
        * destruct (atZ_ok x (hi - 1)) as [a Ha]; [lia|]. destruct (atZ_ok x (hi - 1 + 1)) as [b Hb]; [lia|].
          rewrite Ha; cbn [bind]. rewrite Hb; cbn [bind].
          set (low2 := if neqb a b then hi - 1 + 1 else hi - 1).
          destruct (IH ints low2 hi) as [F|(rs & F & G)]; [cbn in Hl; lia | unfold low2; destruct neqb; lia | exact H2 | |];
            rewrite F; cbn [bind].
          -- left; reflexivity.
          -- right; eexists; split; [reflexivity|]. apply chain_cons with (low2 := low2); auto; try lia.
             unfold low2. replace (hi - 1 + 1) with hi in Hb by lia.
             destruct (neqb a b) eqn:D; [right | left].
             ++ split; [lia|]. eauto.
             ++ split; [reflexivity|]. right; eauto.
        * cbn [bind].
          destruct (IH ints (hi - 1) hi) as [F|(rs & F & G)]; [cbn in Hl; lia | lia | exact H2 | |];
            rewrite F; cbn [bind].
          -- left; reflexivity.
          -- right; eexists; split; [reflexivity|]. apply chain_cons with (low2 := hi - 1); auto; lia.
  Qed.

  Lemma make_tab_cases NBT INT (x y : list T) : valid_breakpoints NBT (sizeZ x) -> sizeZ x < 18446744073709551616 ->
    make_tab NBT INT x y = Throw \/
    exists rs, make_tab NBT INT x y = Ok (mkTab NBT INT x y rs) /\ chain x y 0 NBT INT rs /\
      length x = length y /\ is_sorted x = true.
  Proof.
    intros [Hne Hv] Big. unfold make_tab, guard.
    destruct (Nat.eqb (length NBT) (length INT)) eqn:E1; cbn [bind]; [|left; reflexivity].
    destruct (Nat.eqb (length x) (length y)) eqn:E2; cbn [bind]; [|left; reflexivity].
    destruct (is_sorted x) eqn:E3; cbn [bind]; [|left; reflexivity].
    apply Nat.eqb_eq in E1, E2.
    destruct (make_regions_cases x y E2 Big NBT INT 0 0 E1 ltac:(lia) Hv) as [F|(rs & F & G)]; rewrite F; cbn [bind].
    - left; reflexivity.
    - right; eauto 10.
  Qed.

  Lemma chain_range_props x y low bps ints rs : length x = length y -> Forall P x ->
    chain x y low bps ints rs ->
    Forall (fun r => Forall P (r_x r) /\ r_x r <> [] /\ length (r_x r) = length (r_y r) /\ is_sorted (r_x r) = true) rs.
  Proof.
    intros L F C. induction C as [|low hi bps i ints rs low2 H1 H2 H3 H4 H5 C IH]; constructor; [|exact IH].
    cbn [r_x r_y].
    assert (sizeZ (sl x low hi) = hi - low) as S1 by (apply sl_size; lia).
    assert (sizeZ (sl y low hi) = hi - low) as S2 by (apply sl_size; unfold sizeZ in *; lia).
    split; [|split; [|split]].
    - rewrite Forall_forall in *. intros a Ha. apply F. eapply sl_incl; eauto.
    - intros E. rewrite E in S1. unfold sizeZ in S1; cbn in S1; lia.
    - unfold sizeZ in *; lia.
    - exact H4.
  Qed.

  Lemma increasing_to_le bps : forall p n, increasing_to p bps n -> p <= n.
  Proof. induction bps as [|h t IH]; cbn; intros p n H; [lia|]. destruct H as [H1 H2]. apply IH in H2; lia. Qed.

  (** the last region ends at the last point *)
  Lemma regions_eval_safe x y bps ints rs low prev v : length x = length y -> Forall P x -> P v ->
    chain x y low bps ints rs -> increasing_to prev bps (sizeZ x) -> bps <> [] ->
    (exists mx, atZ x (sizeZ x - 1) = Ok mx /\ nltb mx v = false) ->
    exists w, regions_eval rs v = Ok w.
  Proof.
    intros L F Pv C. revert prev. induction C as [|low hi bps i ints rs low2 H1 H2 H3 H4 H5 C IH];
      intros prev Hinc Hne Hmx; [easy|].
    cbn [regions_eval]. unfold range_max, backR. cbn [r_x].
    rewrite sl_size by lia. rewrite sl_at by lia.
    destruct (atZ_ok x (low + (hi - low - 1))) as [m Hm]; [lia|]. rewrite Hm; cbn [bind].
    cbn [increasing_to] in Hinc. destruct Hinc as [Hp Hinc].
    assert (C0 : chain x y low (hi :: bps) (i :: ints) (mkRange i (sl x low hi) (sl y low hi) :: rs))
      by (econstructor; eauto).
    pose proof (chain_range_props _ _ _ _ _ _ L F C0) as R. inversion R as [|? ? (R1 & R2 & R3 & R4) R5]; subst.
    destruct (nltb m v) eqn:D.
    - destruct bps as [|b bps].
      + cbn in Hinc. destruct Hmx as (mx & Hmx & Hn). subst hi.
        replace (low + (sizeZ x - low - 1)) with (sizeZ x - 1) in Hm by lia. congruence.
      + eapply IH; eauto. discriminate.
    - apply range_eval_safe; assumption.
  Qed.

  (** every accepted table with valid breakpoints can be evaluated anywhere *)
  Lemma tab_eval_safe NBT INT x y t v : valid_breakpoints NBT (sizeZ x) -> sizeZ x < 18446744073709551616 ->
    Forall P x -> P v -> make_tab NBT INT x y = Ok t -> exists w, tab_eval t v = Ok w.
  Proof.
    intros Hv Big F Pv H. destruct (make_tab_cases NBT INT x y Hv Big) as [E|(rs & E & C & L & S)]; [congruence|].
    rewrite E in H. injection H as <-. unfold tab_eval, frontR, backR. cbn [t_x t_regions].
    destruct Hv as [Hne Hinc].
    assert (0 < sizeZ x).
    { destruct NBT as [|h q]; [easy|]. cbn in Hinc. destruct Hinc as [A B]. apply increasing_to_le in B. lia. }
    destruct (atZ_ok x 0) as [mn Hmn]; [lia|]. rewrite Hmn; cbn [bind].
    pose proof (chain_range_props _ _ _ _ _ _ L F C) as R.
    assert (Hrs : rs <> []) by (inversion C; subst; [easy | discriminate]).
    assert (0 < sizeZ rs) by (unfold sizeZ; destruct rs; [easy | cbn [length]; lia]).
    destruct (nleb v mn).
    { destruct (atZ_ok rs 0) as [r Hr]; [lia|]. rewrite Hr; cbn [bind].
      rewrite Forall_forall in R. destruct (R r (atZ_In _ _ _ Hr)) as (A & B & D & G).
      apply range_eval_safe; assumption. }
    destruct (atZ_ok x (sizeZ x - 1)) as [mx Hmx]; [lia|]. rewrite Hmx; cbn [bind].
    destruct (nleb mx v) eqn:C2.
    { destruct (atZ_ok rs (sizeZ rs - 1)) as [r Hr]; [lia|]. rewrite Hr; cbn [bind].
      rewrite Forall_forall in R. destruct (R r (atZ_In _ _ _ Hr)) as (A & B & D & G).
      apply range_eval_safe; assumption. }
    assert (Pmx : P mx) by (rewrite Forall_forall in F; eauto using atZ_In).
    rewrite (no_leb O) in C2 by assumption. apply negb_false_iff in C2.
    eapply regions_eval_safe; eauto. exists mx; split; [exact Hmx|].
    destruct (nltb mx v) eqn:D; [|reflexivity].
    assert (nltb v v = true) by (eapply (no_trans O) with (y := mx); eauto).
    rewrite (no_irrefl O) in H1 by assumption. discriminate.
  Qed.
End Safe.
