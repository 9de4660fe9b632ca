(** * Choosing and chaining the secondary distributions of an ACE file *)
From Coq Require Import Reals Lra Lia List ZifyBool ZifyNat.
From Verif Require Import Base NumR L_Search L_SearchR M_Interp M_Tab1D M_Func M_Grid M_PC M_OutE M_Spectra M_Kin M_Ace M_Neutron M_Laws S_Neutron S_Laws L_Grid L_Xs L_Neutron L_Neutron2 L_PC L_Ace L_Laws.
Import ListNotations.
Local Open Scope R_scope.

Lemma i32_ok z : (- 2 ^ 31 <= z < 2 ^ 31)%Z -> i32 z = Ok z.
Proof. intros H. unfold i32, in_i32. replace ((_ <=? z) && _)%bool%Z with true by lia. reflexivity. Qed.

(** ** angular distributions *)
Lemma angle_law_read a k l law : locator_ok (AND a) l -> xss_i32 a k = Ok l -> angle_layout a l law -> angle_law_of_ace a k = Ok law.
Proof.
  intros [B0 B1] E L. unfold angle_law_of_ace. rewrite E. cbn [bind]. rewrite (i32_ok (Z.abs l)) by lia. cbn [bind]. rewrite (i32_ok (AND a + Z.abs l)) by lia. cbn [bind].
  rewrite i32_ok by lia. cbn [bind]. destruct L as [|l bounds b P H M|l b p t P H Lp M].
  - reflexivity.
  - replace (0 <? l)%Z with true by lia. rewrite wrap32_u by (unfold u32; lia). rewrite Z.abs_eq by lia. rewrite (bins_read _ _ bounds) by (exact H || apply (make_bins_33 _ _ M)). rewrite M. reflexivity.
  - replace (0 <? l)%Z with false by lia. replace (l <? 0)%Z with true by lia. rewrite wrap32_u by (unfold u32; lia). rewrite Z.abs_neq by lia.
    unfold angle_table_of_ace. change (@nofZ R NumR 1) with 1. rewrite (pc_read_layout _ _ _ _ Lp H). cbn [bind]. rewrite M. reflexivity.
Qed.
Lemma adist_read a locb energy locs laws : (0 < locb)%Z -> locator_ok (AND a) locb -> u32 (sizeZ energy) ->
  holds a (AND a + locb - 1) ([IZR (sizeZ energy)] ++ energy ++ nums locs) -> length locs = length energy ->
  Forall (locator_ok (AND a)) locs -> Forall2 (angle_layout a) locs laws ->
  adist_of_ace a locb = make_adist energy laws.
Proof.
  intros P [B0 B1] UE H LL FL FA. unfold adist_of_ace. replace (locb <? 0)%Z with false by lia. replace (0 <? locb)%Z with true by lia. rewrite Z.abs_eq in B1 by lia.
  rewrite i32_ok by lia. cbn [bind]. rewrite i32_ok by lia. cbn [bind]. cbn [app] in H. rewrite (holds_u32 _ _ _ _ UE H). cbn [bind]. apply holds_cons in H as [_ H]. apply holds_app in H as [H1 H2].
  rewrite (holds_vec _ _ _ H1). cbn [bind]. unfold make_adist. rewrite (eqb_length_refl energy laws) by (rewrite <- LL; apply (Forall2_length FA)). cbn [guard bind].
  destruct (guard (is_sorted energy)); cbn [bind]; try reflexivity.
  rewrite to_nat_sizeZ, <- LL. rewrite (mapR_zseq _ locs laws); [reflexivity|symmetry; apply (Forall2_length FA)|].
  intros j l law El Elaw. apply angle_law_read with l.
  - rewrite Forall_forall in FL. apply FL. apply nth_error_In with j. exact El.
  - unfold xss_i32. rewrite (holds_nth _ _ _ j (IZR l) H2) by (unfold nums; apply map_nth_error; exact El). cbn [bind]. apply trunc_i32_IZR.
    assert (K : locator_ok (AND a) l) by (rewrite Forall_forall in FL; apply FL; apply nth_error_In with j; exact El). destruct K. lia.
  - clear - FA El Elaw. revert j El Elaw. induction FA as [|x y ls ys A _ IH]; intros [|j] El Elaw; try discriminate; cbn in El, Elaw; [injection El as <-; injection Elaw as <-; exact A|]. apply (IH j); assumption.
Qed.
Lemma adist_isotropic a : adist_of_ace a 0 = Ok (mkADist [/ 100000] [isotropic]).
Proof. unfold adist_of_ace. cbn [Z.ltb Z.compare]. f_equal. f_equal. f_equal. change (1 / 100000 = / 100000). lra. Qed.
Lemma adist_negative a locb : (locb < 0)%Z -> adist_of_ace a locb = Throw (A := adist R).
Proof. intros H. unfold adist_of_ace. replace (locb <? 0)%Z with true by lia. reflexivity. Qed.

(** ** laws *)
Lemma energy_law_read a JED law b e j : energy_layout a JED law b e -> holds a j b -> energy_law a law j JED = Some (Ok e).
Proof.
  intros L H. destruct L as [NBT INT energy sets n d RO UE Un FS M|lp Eg d U M|C1 C2|NBT INT energy locs ts d RO UE LL LO M|NBT INT energy y U t RO SE LY M|NBT INT energy y U t RO SE LY M|N1 I1 e1 y1 t1 N2 I2 e2 y2 t2 U R1 S1 L1 M1 R2 S2 L2 M2]; unfold energy_law; cbn [Z.eqb Pos.eqb].
  - rewrite (ebins_read _ _ _ _ _ sets n RO UE Un); [|clear - M|exact FS|exact H].
    + rewrite M. reflexivity.
    + unfold make_ebins in M. apply bind_ok in M as (? & _ & M). apply bind_ok in M as (? & G & _). apply guard_ok in G. apply Nat.eqb_eq in G. congruence.
  - rewrite (dphoton_read _ _ _ _ U H), M. reflexivity.
  - rewrite (level_read _ _ _ _ H). reflexivity.
  - rewrite (tabe_read _ _ _ _ _ _ _ _ RO UE LL LO H). apply make_tabe_eq in M as ->. reflexivity.
  - rewrite (temp_read _ _ _ _ _ _ _ RO SE LY H), M. reflexivity.
  - rewrite (temp_read _ _ _ _ _ _ _ RO SE LY H), M. reflexivity.
  - rewrite (watt_read _ _ _ _ _ _ _ _ _ _ _ R1 S1 L1 R2 S2 L2 H), M1. cbn [bind]. rewrite M2. reflexivity.
Qed.
Lemma make_law_read a angle q law b d j : law_layout a angle q law b d -> holds a j b -> make_law a angle q law j = Ok d.
Proof.
  intros L H. destruct L as [law b e ad -> L|NBT INT energy locs ts d RO UE LL LO M|NBT INT energy locs ts d RO UE LL LO M|n Ap d U M]; unfold make_law.
  - rewrite (energy_law_read _ _ _ _ _ _ L H). reflexivity.
  - cbn. rewrite (kal_read _ _ _ _ _ _ _ RO UE LL LO H), M. reflexivity.
  - cbn. rewrite (tea_read _ _ _ _ _ _ _ RO UE LL LO H), M. reflexivity.
  - cbn. rewrite (nbody_read _ _ _ _ _ U H), M. reflexivity.
Qed.
(** the numbers the library knows *)
Definition plain_law (law : Z) : bool := existsb (Z.eqb law) [1; 2; 3; 4; 5; 7; 9; 11]%Z.
Definition known_law (law : Z) : bool := (plain_law law || existsb (Z.eqb law) [44; 61; 66]%Z)%bool.
Lemma energy_law_none a law j JED : plain_law law = false -> energy_law (T := R) a law j JED = None.
Proof. unfold plain_law, energy_law. cbn [existsb]. intros H. repeat (match goal with |- context [if ?c then _ else _] => replace c with false by lia end). reflexivity. Qed.
Lemma energy_law_some a law j JED : plain_law law = true -> exists e, energy_law (T := R) a law j JED = Some e.
Proof.
  unfold plain_law, energy_law. cbn [existsb]. intros H.
  repeat (match goal with |- context [if (law =? ?n)%Z then _ else _] => destruct (Z.eqb_spec law n); [eexists; reflexivity|] end). lia.
Qed.
Lemma make_law_unknown a angle q law j : known_law law = false -> make_law (T := R) a angle q law j = Throw.
Proof.
  unfold known_law. intros H. apply Bool.orb_false_iff in H as [H1 H2]. unfold make_law. rewrite energy_law_none by exact H1. cbn [existsb] in H2.
  repeat (match goal with |- context [if ?c then _ else _] => replace c with false by lia end). reflexivity.
Qed.
Lemma make_law_no_angle a q law j : plain_law law = true -> make_law (T := R) a None q law j = Throw.
Proof. intros H. unfold make_law. destruct (energy_law_some a law j (DLW a) H) as [e ->]. reflexivity. Qed.

(** ** the loop *)
Section Loop.
  Variables (a : ace R) (angle : option (adist R)) (q : R).
  (** one turn: the law, its probability and the position of the next block, if any *)
  Definition turn (i : Z) : res (aelaw R * tab R * option Z) :=
    let! lnw := xss_u32 a i in
    let! law := xss_i32 a (i + 1)%Z in
    let! idat := xss_u32 a (i + 2)%Z in
    let! r := read_pairs a (i + 3)%Z in
    let! p := snd r in
    let! d := make_law a angle q law (DLW a + idat - 1)%Z in
    Ok (d, p, if (lnw =? 0)%Z then None else Some (DLW a + lnw - 1)%Z).
  Lemma law_loop_S n i : law_loop (S n) a angle q i =
    let! t := turn i in match snd t with None => Ok [fst t] | Some i' => let! l := law_loop n a angle q i' in Ok (fst t :: l) end.
  Proof.
    cbn [law_loop]. unfold turn.
    destruct (xss_u32 a i) as [lnw| | |]; cbn [bind]; try reflexivity. destruct (xss_i32 a (i + 1)) as [law| | |]; cbn [bind]; try reflexivity.
    destruct (xss_u32 a (i + 2)) as [idat| | |]; cbn [bind]; try reflexivity. destruct (read_pairs a (i + 3)) as [r| | |]; cbn [bind]; try reflexivity.
    destruct (snd r) as [p| | |]; cbn [bind]; try reflexivity. destruct (make_law a angle q law (DLW a + idat - 1)) as [d| | |]; cbn [bind]; try reflexivity.
    destruct (lnw =? 0)%Z; reflexivity.
  Qed.
  Fixpoint after (k : nat) (i : Z) : option Z :=
    match k with
    | O => Some i
    | S k' => match turn i with Ok (_, Some i') => after k' i' | _ => None end
    end.
  Lemma after_plus j k i x : after j i = Some x -> after (j + k) i = after k x.
  Proof.
    revert i. induction j as [|j IH]; intros i H; cbn in *; [congruence|]. destruct (turn i) as [[t [i'|]]| | |]; try discriminate. apply IH, H.
  Qed.
  Lemma after_le j k i : (j <= k)%nat -> after k i <> None -> after j i <> None.
  Proof.
    revert k i. induction j as [|j IH]; intros k i L H; [discriminate|]. destruct k as [|k]; [lia|]. cbn in *. destruct (turn i) as [[t [i'|]]| | |]; try exact H. apply (IH k); [lia|exact H].
  Qed.
  (** running out of fuel: either the chain is longer than the fuel, or one of its turns does not end *)
  Lemma loop_nodraw n i : law_loop n a angle q i = NoDraw -> after n i <> None \/ exists k x, (k < n)%nat /\ after k i = Some x /\ turn x = NoDraw.
  Proof.
    revert i. induction n as [|n IH]; intros i H; [left; discriminate|]. rewrite law_loop_S in H.
    destruct (turn i) as [[t o]| | |] eqn:E; cbn [bind] in H; try discriminate.
    - cbn [snd fst] in H. destruct o as [i'|]; [|discriminate]. destruct (law_loop n a angle q i') as [l| | |] eqn:El; cbn [bind] in H; try discriminate.
      destruct (IH i' El) as [A|(k & x & L & A & N)].
      + left. cbn. rewrite E. exact A.
      + right. exists (S k), x. split; [lia|]. split; [cbn; rewrite E; exact A|exact N].
    - right. exists 0%nat, i. split; [lia|]. split; [reflexivity|exact E].
  Qed.
  Lemma nodraw_after n i : after n i <> None -> law_loop n a angle q i = NoDraw.
  Proof.
    revert i. induction n as [|n IH]; intros i H; [reflexivity|]. rewrite law_loop_S. cbn in H. destruct (turn i) as [[t [i'|]]| | |]; try (elim H; reflexivity). cbn [bind snd fst]. rewrite (IH i' H). reflexivity.
  Qed.
  Lemma nodraw_turn k : forall n i x, after k i = Some x -> turn x = NoDraw -> law_loop n a angle q i = NoDraw.
  Proof.
    induction k as [|k IH]; intros [|n] i x A E; try reflexivity; rewrite law_loop_S; cbn in A.
    - injection A as ->. rewrite E. reflexivity.
    - destruct (turn i) as [[t [i'|]]| | |]; try discriminate. cbn [bind snd fst]. rewrite (IH n i' x A E). reflexivity.
  Qed.
  Lemma turn_pos i r : turn i = Ok r -> (0 <= i < sizeZ (a_xss a))%Z.
  Proof.
    unfold turn. intros H. apply bind_ok in H as (lnw & E & _). unfold xss_u32 in E. apply bind_ok in E as (x & E & _). unfold xss in E. apply atZ_inv in E. tauto.
  Qed.
  Lemma cycle_forever i j k x : (j < k)%nat -> after j i = Some x -> after k i = Some x -> forall m, after m i <> None.
  Proof.
    intros L Aj Ak m. assert (P : after (k - j) x = Some x).
    { rewrite <- Ak. replace k with (j + (k - j))%nat at 2 by lia. symmetry. apply after_plus. exact Aj. }
    assert (Q : forall c, after (c * (k - j)) x = Some x).
    { induction c as [|c IH]; [reflexivity|]. cbn [Nat.mul]. rewrite (after_plus _ _ _ _ P). exact IH. }
    apply (after_le m (j + m * (k - j))); [nia|]. rewrite (after_plus _ _ _ _ Aj), Q. discriminate.
  Qed.
  Definition pos (i : Z) (k : nat) : nat := match after k i with Some x => Z.to_nat x | None => O end.
  Lemma NoDup_map_seq (f : nat -> nat) n : (forall j k, (j < k < n)%nat -> f j <> f k) -> NoDup (map f (seq 0 n)).
  Proof.
    intros H. apply (NoDup_nth _ 0%nat). rewrite map_length, seq_length. intros j k Lj Lk E.
    rewrite !(nth_indep _ 0%nat (f 0%nat)) in E by (rewrite map_length, seq_length; lia). rewrite !map_nth, !seq_nth in E by lia. cbn in E.
    destruct (Nat.lt_trichotomy j k) as [L|[L|L]]; [|exact L|]; exfalso; [apply (H j k); [lia|exact E]|apply (H k j); [lia|symmetry; exact E]].
  Qed.
  Lemma long_chain_forever i : after (S (length (a_xss a))) i <> None -> forall m, after m i <> None.
  Proof.
    intros H. set (len := length (a_xss a)) in *.
    assert (S1 : forall k, (k <= S len)%nat -> exists x, after k i = Some x).
    { intros k L. destruct (after k i) as [x|] eqn:E; [exists x; reflexivity|]. exfalso. exact (after_le k (S len) i L H E). }
    assert (Rg : forall k x, (k <= len)%nat -> after k i = Some x -> (0 <= x < Z.of_nat len)%Z).
    { intros k x L E. destruct (S1 (S k)) as [y Ey]; [lia|]. replace (S k) with (k + 1)%nat in Ey by lia. rewrite (after_plus _ _ _ _ E) in Ey. cbn in Ey.
      destruct (turn x) as [[t [i'|]]| | |] eqn:Et; try discriminate. apply turn_pos in Et. unfold sizeZ in Et. exact Et. }
    destruct (Classical_Prop.classic (exists j k, (j < k < S len)%nat /\ pos i j = pos i k)) as [(j & k & L & E)|N].
    - destruct (S1 j) as [x Ex]; [lia|]. destruct (S1 k) as [y Ey]; [lia|]. unfold pos in E. rewrite Ex, Ey in E.
      assert (x = y) by (pose proof (Rg j x ltac:(lia) Ex); pose proof (Rg k y ltac:(lia) Ey); lia). subst y.
      exact (cycle_forever i j k x ltac:(lia) Ex Ey).
    - exfalso. assert (ND : NoDup (map (pos i) (seq 0 (S len)))).
      { apply NoDup_map_seq. intros j k L E. apply N. exists j, k. split; assumption. }
      assert (IN : incl (map (pos i) (seq 0 (S len))) (seq 0 len)).
      { intros p Hp. apply in_map_iff in Hp as (k & <- & Hk). apply in_seq in Hk. destruct (S1 k) as [x Ex]; [lia|]. unfold pos. rewrite Ex. pose proof (Rg k x ltac:(lia) Ex). apply in_seq. lia. }
      apply (NoDup_incl_length ND) in IN. rewrite map_length, !seq_length in IN. lia.
  Qed.
  (** a loop that has not ended after as many turns as XSS has entries never ends *)
  Lemma law_loop_forever i : law_loop (S (length (a_xss a))) a angle q i = NoDraw -> forall n, law_loop n a angle q i = NoDraw.
  Proof.
    intros H n. apply loop_nodraw in H as [H|(k & x & _ & A & E)].
    - apply nodraw_after. apply long_chain_forever. exact H.
    - apply (nodraw_turn k n i x A E).
  Qed.
  Lemma law_loop_mono n m i r : (n <= m)%nat -> law_loop n a angle q i = r -> r <> NoDraw -> law_loop m a angle q i = r.
  Proof.
    revert m i r. induction n as [|n IH]; intros m i r L E N; [cbn in E; congruence|]. destruct m as [|m]; [lia|]. rewrite law_loop_S in *.
    destruct (turn i) as [[t [i'|]]| | |]; cbn [bind snd fst] in *; try exact E.
    destruct (law_loop n a angle q i') as [l| | |] eqn:El; cbn [bind] in E; subst r; try (elim N; reflexivity); rewrite (IH m i' _ ltac:(lia) El) by discriminate; reflexivity.
  Qed.
  Lemma law_loop_enough n i r : law_loop n a angle q i = r -> r <> NoDraw -> law_loop (S (length (a_xss a))) a angle q i = r.
  Proof.
    intros E N. destruct (Nat.le_gt_cases n (S (length (a_xss a)))) as [L|L]; [apply (law_loop_mono n); assumption|].
    destruct (law_loop (S (length (a_xss a))) a angle q i) as [l| | |] eqn:F.
    4: { rewrite (law_loop_forever i F n) in E. congruence. }
    all: rewrite (law_loop_mono (S (length (a_xss a))) n i _ ltac:(lia) F) in E by discriminate; exact E.
  Qed.
  Lemma law_list_loop loc l : law_list a angle q loc l -> exists n, law_loop n a angle q (DLW a + loc - 1) = Ok l.
  Proof.
    induction 1 as [loc law idat NBT INT energy p data t d Ui Ul RO UE LP H Et Hd L|loc next law idat NBT INT energy p data t d rest Un Pn Ui Ul RO UE LP H Et Hd L _ [n IH]].
    - exists 1%nat. cbn [law_loop]. cbn [app] in H. rewrite (holds_u32 a _ 0 _ ltac:(unfold u32; lia) H). cbn [bind]. apply holds_cons in H as [_ H].
      rewrite (holds_i32 _ _ _ _ Ul H). cbn [bind]. apply holds_cons in H as [_ H]. replace (DLW a + loc - 1 + 1 + 1)%Z with (DLW a + loc - 1 + 2)%Z in H by lia.
      rewrite (holds_u32 _ _ _ _ Ui H). cbn [bind]. apply holds_cons in H as [_ H]. replace (DLW a + loc - 1 + 2 + 1)%Z with (DLW a + loc - 1 + 3)%Z in H by lia.
      rewrite <- (app_nil_r (tab_block _ _ _ _)) in H. destruct (pairs_read _ _ _ _ _ _ _ RO UE LP H) as (k & -> & _). cbn [bind snd]. rewrite Et. cbn [bind].
      rewrite (make_law_read _ _ _ _ _ _ _ L Hd). reflexivity.
    - exists (S n). cbn [law_loop]. cbn [app] in H. rewrite (holds_u32 a _ next _ Un H). cbn [bind]. apply holds_cons in H as [_ H].
      rewrite (holds_i32 _ _ _ _ Ul H). cbn [bind]. apply holds_cons in H as [_ H]. replace (DLW a + loc - 1 + 1 + 1)%Z with (DLW a + loc - 1 + 2)%Z in H by lia.
      rewrite (holds_u32 _ _ _ _ Ui H). cbn [bind]. apply holds_cons in H as [_ H]. replace (DLW a + loc - 1 + 2 + 1)%Z with (DLW a + loc - 1 + 3)%Z in H by lia.
      rewrite <- (app_nil_r (tab_block _ _ _ _)) in H. destruct (pairs_read _ _ _ _ _ _ _ RO UE LP H) as (k & -> & _). cbn [bind snd]. rewrite Et. cbn [bind].
      rewrite (make_law_read _ _ _ _ _ _ _ L Hd). cbn [bind]. replace (next =? 0)%Z with false by lia. rewrite IH. reflexivity.
  Qed.
  Lemma law_list_nonempty loc l : law_list a angle q loc l -> l <> [].
  Proof. destruct 1; discriminate. Qed.
End Loop.
