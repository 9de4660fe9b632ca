(** * Loops whose turns use a varying number of random numbers *)
From Coq Require Import Reals Lra Lia List Arith. From Coquelicot Require Import Coquelicot.
From Verif Require Import Base S_Prob L_Prob L_ProbEv L_ProbLaw. Import ListNotations.
Local Open Scope R_scope.

(** a sampler that does not look at the numbers it does not use *)
Definition steady {A} (s : rand R A) : Prop := forall ds v r, open01 ds -> s ds = Ok (v, r) -> exists l, ds = l ++ r /\ forall r', open01 r' -> s (l ++ r') = Ok (v, r').
Definition asks {A} (s : rand R A) : Prop := forall v r, s [] <> Ok (v, r).
Definition ret {A} (s : rand R A) (B : A -> Prop) (l : list R) : Prop := exists v r, s l = Ok (v, r) /\ B v.
Definition exact {A} (s : rand R A) (B : A -> Prop) (l : list R) : Prop := exists v, s l = Ok (v, []) /\ B v.

Lemma open01_app l r : open01 (l ++ r) <-> open01 l /\ open01 r. Proof. apply Forall_app. Qed.
Lemma ret_exact {A} (s : rand R A) B l : steady s -> open01 l -> (ret s B l <-> exists j, (j <= length l)%nat /\ exact s B (firstn j l)).
Proof.
  intros St O. split.
  - intros (v & r & E & Hv). destruct (St _ _ _ O E) as (u & -> & H). exists (length u). rewrite app_length. split; [lia|]. rewrite firstn_app, Nat.sub_diag, firstn_O, firstn_all, app_nil_r. exists v. split; [|exact Hv]. specialize (H [] (Forall_nil _)). rewrite app_nil_r in H. exact H.
  - intros (j & Hj & v & E & Hv). rewrite <- (firstn_skipn j l) in O. apply open01_app in O as [O1 O2]. destruct (St _ _ _ O1 E) as (u & Eu & H). rewrite app_nil_r in Eu. exists v, (skipn j l). split; [|exact Hv]. rewrite <- (firstn_skipn j l) at 1. rewrite Eu. apply H. exact O2.
Qed.
Lemma exact_unique {A} (s : rand R A) B C l i j : steady s -> open01 l -> (i <= length l)%nat -> (j <= length l)%nat -> exact s B (firstn i l) -> exact s C (firstn j l) -> i = j.
Proof.
  intros St O Hi Hj (v & E & _) (w & F & _).
  assert (K : forall i v, (i <= length l)%nat -> s (firstn i l) = Ok (v, []) -> s l = Ok (v, skipn i l)).
  { intros k z Hk Ek. assert (Ol : open01 (firstn k l ++ skipn k l)) by (rewrite firstn_skipn; exact O). apply open01_app in Ol as [O1 O2]. destruct (St _ _ _ O1 Ek) as (u & Eu & H). rewrite app_nil_r in Eu. rewrite <- (firstn_skipn k l) at 1. rewrite Eu. apply H. exact O2. }
  apply K in E; [|exact Hi]. apply K in F; [|exact Hj]. rewrite E in F. assert (L : skipn i l = skipn j l) by congruence. apply (f_equal (@length R)) in L. rewrite !skipn_length in L. lia.
Qed.
Lemma ud_open n l : unit_draws n l -> open01 l. Proof. intros [_ H]. exact H. Qed.
Lemma ud_first n j l : unit_draws n l -> (j <= n)%nat -> unit_draws j (firstn j l).
Proof. intros [L F] H. split; [rewrite firstn_length; lia|]. rewrite <- (firstn_skipn j l) in F. apply Forall_app in F. tauto. Qed.
Lemma ud_skip n j l : unit_draws n l -> unit_draws (n - j) (skipn j l).
Proof. intros [L F]. split; [rewrite skipn_length; lia|]. rewrite <- (firstn_skipn j l) in F. apply Forall_app in F. tauto. Qed.

(** the probability that exactly j numbers are used *)
Lemma prob_diff n (X Y : list R -> Prop) p q : (forall l, unit_draws n l -> Y l -> X l) -> prob n X p -> prob n Y q -> prob n (fun l => X l /\ ~ Y l) (p - q).
Proof.
  intros H (f & F & E) (g & G & E'). exists (fun l => f l - g l). split.
  - intros l Hl. specialize (H l Hl). destruct (F l Hl) as [[a ->]|[a ->]], (G l Hl) as [[b ->]|[b ->]]; try tauto; [right|left|right]; (split; [tauto|lra]).
  - apply (expect_ext n (fun l => 1 * f l + (- 1) * g l)); [intros; ring|]. eapply expect_val; [|apply expect_lin; [exact E|exact E']]. ring.
Qed.
Lemma prob_firstn n m (X : list R -> Prop) p : prob n X p -> prob (n + m) (fun l => X (firstn n l)) p.
Proof. intros (f & F & E). exists (fun l => f (firstn n l)). split; [|apply expect_firstn; exact E]. intros l Hl. apply F. apply (ud_first (n + m)); [exact Hl|lia]. Qed.
Lemma ret_first {A} (s : rand R A) B l j : steady s -> open01 l -> (j <= length l)%nat -> ret s B (firstn j l) -> ret s B l.
Proof.
  intros St O Hj H. assert (O1 : open01 (firstn j l)) by (rewrite <- (firstn_skipn j l) in O; apply open01_app in O; tauto). apply (ret_exact s B _ St O1) in H as (i & Hi & H). rewrite firstn_length in Hi. apply (ret_exact s B l St O). exists i. split; [lia|]. rewrite firstn_firstn in H. rewrite Nat.min_l in H by lia. exact H.
Qed.
Lemma prob_exact {A} (s : rand R A) B (p : nat -> R) : steady s -> asks s -> (forall k, prob k (ret s B) (p k)) -> p O = 0 /\ forall k, prob (S k) (exact s B) (p (S k) - p k).
Proof.
  intros St As H. split.
  - assert (Z : prob 0 (ret s B) 0) by (apply prob_never; intros l [L _] (v & r & E & _); destruct l; [exact (As v r E)|discriminate]). exact (prob_unique _ _ _ _ (H O) Z).
  - intros k. pose proof (prob_firstn k 1 _ _ (H k)) as F. rewrite Nat.add_1_r in F. eapply prob_ext; [|apply (prob_diff (S k) (ret s B) (fun l => ret s B (firstn k l)) _ _ ltac:(intros l Hl; apply ret_first; [exact St|exact (ud_open _ _ Hl)|destruct Hl; lia]) (H (S k)) F)].
    intros l Hl. cbv beta. pose proof (ud_open _ _ Hl) as O. pose proof (ud_first _ k _ Hl ltac:(lia)) as Hf. destruct Hl as [L _]. rewrite (ret_exact s B l St O). rewrite (ret_exact s B (firstn k l) St (ud_open _ _ Hf)). destruct Hf as [Lf _]. rewrite Lf, L. split.
    + intros ((j & Hj & E) & N). destruct (Nat.eq_dec j (S k)) as [->|D]; [rewrite <- L, firstn_all in E; exact E|]. exfalso. apply N. exists j. split; [lia|]. rewrite firstn_firstn, Nat.min_l by lia. exact E.
    + intros E. assert (E' : exact s B (firstn (S k) l)) by (rewrite <- L, firstn_all; exact E). split; [exists (S k); split; [lia|exact E']|]. intros (j & Hj & F'). rewrite firstn_firstn, Nat.min_l in F' by lia. pose proof (exact_unique s B B l (S k) j St O ltac:(lia) ltac:(lia) E' F'). lia.
Qed.

(** one event after the other *)
Lemma prob_and n m (X Y : list R -> Prop) p q : prob n X p -> prob m Y q -> prob (n + m) (fun l => X (firstn n l) /\ Y (skipn n l)) (p * q).
Proof.
  intros (f & F & E) (g & G & E'). exists (fun l => f (firstn n l) * g (skipn n l)). split.
  - intros l Hl. pose proof (ud_first _ n _ Hl ltac:(lia)) as H1. pose proof (ud_skip _ n _ Hl) as H2. replace (n + m - n)%nat with m in H2 by lia. destruct (F _ H1) as [[a ->]|[a ->]], (G _ H2) as [[b ->]|[b ->]]; [left|right|right|right]; (split; [tauto|lra]).
  - apply (expect_app n m _ (fun l => q * f l + 0 * f l)).
    + intros a Ua. apply (expect_ext m (fun r => f a * g r + 0 * g r)).
      * intros r _. assert (firstn n (a ++ r) = a) as -> by (destruct Ua as [<- _]; rewrite firstn_app, Nat.sub_diag, firstn_O, app_nil_r, firstn_all; reflexivity). assert (skipn n (a ++ r) = r) as -> by (destruct Ua as [<- _]; rewrite skipn_app, Nat.sub_diag, skipn_all; reflexivity). ring.
      * eapply expect_val; [|apply expect_lin; exact E']. ring.
    + eapply expect_val; [|apply expect_lin; exact E]. ring.
Qed.
Lemma prob_or n (X Y : list R -> Prop) p q : (forall l, unit_draws n l -> X l -> Y l -> False) -> prob n X p -> prob n Y q -> prob n (fun l => X l \/ Y l) (p + q).
Proof.
  intros H (f & F & E) (g & G & E'). exists (fun l => f l + g l). split.
  - intros l Hl. specialize (H l Hl). destruct (F l Hl) as [[a ->]|[a ->]], (G l Hl) as [[b ->]|[b ->]]; try tauto; [left|left|right]; (split; [tauto|lra]).
  - apply (expect_ext n (fun l => 1 * f l + 1 * g l)); [intros; ring|]. eapply expect_val; [|apply expect_lin; [exact E|exact E']]. ring.
Qed.
Lemma prob_conv (X Y : list R -> Prop) (c d : nat -> R) k : (forall j, prob (S j) X (c j)) -> (forall j, (j <= k)%nat -> prob j Y (d j)) ->
  (forall l i j, open01 l -> (i <= length l)%nat -> (j <= length l)%nat -> X (firstn i l) -> X (firstn j l) -> i = j) ->
  prob (S k) (fun l => exists j, (j <= k)%nat /\ X (firstn (S j) l) /\ Y (skipn (S j) l)) (sum_f_R0 (fun j => c j * d (k - j)%nat) k).
Proof.
  intros HX HY U. assert (G : forall i, (i <= k)%nat -> prob (S k) (fun l => exists j, (j <= i)%nat /\ X (firstn (S j) l) /\ Y (skipn (S j) l)) (sum_f_R0 (fun j => c j * d (k - j)%nat) i)); [|apply G; lia].
  assert (T : forall i, (i <= k)%nat -> prob (S k) (fun l => X (firstn (S i) l) /\ Y (skipn (S i) l)) (c i * d (k - i)%nat)).
  { intros i Hi. replace (S k) with (S i + (k - i))%nat by lia. apply prob_and; [apply HX|apply HY; lia]. }
  induction i as [|i IH]; intros Hi; cbn [sum_f_R0].
  - eapply prob_ext; [|apply (T O Hi)]. intros l Hl. split; [intros H; exists O; split; [lia|exact H]|]. intros (j & Hj & H). assert (j = O) as -> by lia. exact H.
  - specialize (IH ltac:(lia)). specialize (T (S i) Hi). eapply prob_ext; [|refine (prob_or (S k) _ _ _ _ _ IH T)].
    + intros l Hl. split.
      * intros [(j & Hj & H)|H]; [exists j; split; [lia|exact H]|exists (S i); split; [lia|exact H]].
      * intros (j & Hj & H). destruct (Nat.eq_dec j (S i)) as [->|N]; [right; exact H|left; exists j; split; [lia|exact H]].
    + intros l Hl (j & Hj & H1 & _) (H2 & _). destruct Hl as [L O]. pose proof (U l (S j) (S (S i)) O ltac:(lia) ltac:(lia) H1 H2). lia.
Qed.
Lemma conv_lim (c p : nat -> R) (C L : R) : (forall j, 0 <= c j) -> (forall j, 0 <= p j) -> (forall j, p j <= p (S j)) -> is_lim_seq (fun k => sum_f_R0 c k) C -> is_lim_seq p L ->
  is_lim_seq (fun k => sum_f_R0 (fun j => c j * p (k - j)%nat) k) (C * L).
Proof.
  intros Hc Hp Hm HC HL.
  assert (Mp : forall i j, (i <= j)%nat -> p i <= p j) by (intros i j Hij; induction Hij; [lra|eapply Rle_trans; [exact IHHij|apply Hm]]).
  assert (PL : forall j, p j <= L) by (intros j; exact (is_lim_seq_incr_compare p L HL Hm j)).
  assert (SC : forall j, sum_f_R0 c j <= C) by (intros j; apply (is_lim_seq_incr_compare (fun k => sum_f_R0 c k) C HC); intros m; cbn [sum_f_R0]; pose proof (Hc (S m)); lra).
  assert (L0 : 0 <= L) by (eapply Rle_trans; [apply (Hp O)|apply PL]).
  assert (S0 : forall j, 0 <= sum_f_R0 c j) by (intros j; apply cond_pos_sum; exact Hc). assert (C0 : 0 <= C) by (eapply Rle_trans; [apply (S0 O)|apply SC]).
  assert (UB : forall k, sum_f_R0 (fun j => c j * p (k - j)%nat) k <= C * L).
  { intros k. apply Rle_trans with (sum_f_R0 c k * L); [|apply Rmult_le_compat_r; [exact L0|apply SC]]. rewrite Rmult_comm, scal_sum. apply sum_Rle. intros j _. apply Rmult_le_compat_l; [apply Hc|apply PL]. }
  assert (LB : forall J m, sum_f_R0 c J * p m <= sum_f_R0 (fun j => c j * p (J + m - j)%nat) (J + m)).
  { intros J m. apply Rle_trans with (sum_f_R0 (fun j => c j * p (J + m - j)%nat) J).
    - rewrite Rmult_comm, scal_sum. apply sum_Rle. intros j Hj. apply Rmult_le_compat_l; [apply Hc|apply Mp; lia].
    - destruct m as [|m]; [rewrite Nat.add_0_r; lra|]. rewrite (tech2 _ J (J + S m)) by lia. assert (0 <= sum_f_R0 (fun i => c (S J + i)%nat * p (J + S m - (S J + i))%nat) (J + S m - S J)) by (apply cond_pos_sum; intros i; apply Rmult_le_pos; [apply Hc|apply Hp]). lra. }
  apply is_lim_seq_spec. intros eps. assert (Q : is_lim_seq (fun k => sum_f_R0 c k * p k) (C * L)) by (apply is_lim_seq_mult'; assumption). apply is_lim_seq_spec in Q. destruct (Q eps) as [N HN]. exists (N + N)%nat. intros k Hk. specialize (HN N (le_n _)).
  pose proof (UB k) as U. pose proof (LB N (k - N)%nat) as Lb. replace (N + (k - N))%nat with k in Lb by lia. assert (sum_f_R0 c N * p N <= sum_f_R0 c N * p (k - N)%nat) by (apply Rmult_le_compat_l; [apply S0|apply Mp; lia]). apply Rabs_lt_between in HN. apply Rabs_lt_between. lra.
Qed.

(** ** a loop over turns *)
Definition loops {A} (s : rand R A) (t : rand R (option A)) : Prop := forall ds, open01 ds ->
  match t ds with Ok (Some v, r) => s ds = Ok (v, r) | Ok (None, r) => s ds = s r | _ => forall v r, s ds <> Ok (v, r) end.
Lemma steady_shorter {A} (t : rand R A) ds v r : steady t -> asks t -> open01 ds -> t ds = Ok (v, r) -> (length r < length ds)%nat /\ open01 r.
Proof.
  intros St As O E. destruct (St _ _ _ O E) as (l & -> & H). apply open01_app in O as [_ O]. split; [|exact O]. rewrite app_length. destruct l as [|x l]; [|cbn; lia]. specialize (H [] (Forall_nil _)). cbn in H. destruct (As _ _ H).
Qed.
Lemma loop_steady {A} (s : rand R A) t : steady t -> asks t -> loops s t -> steady s.
Proof.
  intros St As Lp. assert (G : forall n ds, (length ds <= n)%nat -> forall v r, open01 ds -> s ds = Ok (v, r) -> exists l, ds = l ++ r /\ forall r', open01 r' -> s (l ++ r') = Ok (v, r')); [|intros ds v r; apply (G (length ds)); lia].
  induction n as [|n IH]; intros ds Ln v r O E.
  - assert (ds = []) as -> by (destruct ds; [reflexivity|cbn in Ln; lia]). specialize (Lp [] O). destruct (t []) as [[[w|] q]| | |] eqn:Et; try (destruct (As _ _ Et)); destruct (Lp _ _ E).
  - pose proof (Lp ds O) as P. destruct (t ds) as [[[w|] q]| | |] eqn:Et; try (destruct (P _ _ E)).
    + rewrite P in E. assert (w = v /\ q = r) as [-> ->] by (split; congruence). destruct (St _ _ _ O Et) as (l & -> & H). exists l. split; [reflexivity|]. intros r' O'. assert (Ol : open01 (l ++ r')) by (apply open01_app in O; apply open01_app; tauto). pose proof (Lp _ Ol) as P'. rewrite (H r' O') in P'. exact P'.
    + rewrite P in E. destruct (steady_shorter t ds None q St As O Et) as [Lq Oq]. destruct (IH q ltac:(lia) v r Oq E) as (l2 & -> & H2). destruct (St _ _ _ O Et) as (l1 & -> & H1). exists (l1 ++ l2). split; [apply app_assoc|]. intros r' O'.
      apply open01_app in O as [O1 _]. apply open01_app in Oq as [O2 _]. assert (Ol : open01 (l2 ++ r')) by (apply open01_app; tauto). rewrite <- app_assoc. assert (Oll : open01 (l1 ++ (l2 ++ r'))) by (apply open01_app; tauto). pose proof (Lp _ Oll) as P'. rewrite (H1 _ Ol) in P'. rewrite P'. apply H2. exact O'.
Qed.
Lemma prob_val n X p q : p = q -> prob n X p -> prob n X q. Proof. intros ->. trivial. Qed.
Lemma law_loop {A} (s : rand R A) (t : rand R (option A)) (B : A -> Prop) a b : steady t -> asks t -> loops s t ->
  law t (fun o => exists v, o = Some v /\ B v) b -> law t (fun o => o = None) (1 - a) -> 0 < a -> law s B (b / a).
Proof.
  intros St As Lp (pb & Hb & Lb) (pn & Hn & Ln) Ha. pose proof (loop_steady s t St As Lp) as Ss.
  destruct (prob_exact t (fun o => o = None) pn St As Hn) as [N0 Hc]. set (c := fun j => pn (S j) - pn j) in *.
  assert (AsS : asks s). { intros v r E. pose proof (Lp [] (Forall_nil _)) as P. destruct (t []) as [[[w|] q]| | |] eqn:Et; try (destruct (As _ _ Et)); destruct (P _ _ E). }
  assert (step : forall k (d : nat -> R), (forall j, (j <= k)%nat -> prob j (ret s B) (d j)) -> prob (S k) (ret s B) (pb (S k) + sum_f_R0 (fun j => c j * d (k - j)%nat) k)).
  { intros k d Hd. pose proof (prob_conv (exact t (fun o => o = None)) (ret s B) c d k Hc Hd (fun l i j O Hi Hj E F => exact_unique t _ _ l i j St O Hi Hj E F)) as PC. eapply prob_ext; [|refine (prob_or (S k) _ _ _ _ _ (Hb (S k)) PC)].
    - intros l Hl. cbv beta. pose proof (ud_open _ _ Hl) as O. pose proof (Lp l O) as P. destruct Hl as [L _]. split.
      + intros [(o & r & E & v & -> & Hv)|(j & Hj & (v & E & ->) & w & r & E' & Hw)].
        * rewrite E in P. exists v, r. split; assumption.
        * exists w, r. split; [|exact Hw]. assert (E2 : t l = Ok (None, skipn (S j) l)).
          { assert (Ol : open01 (firstn (S j) l ++ skipn (S j) l)) by (rewrite firstn_skipn; exact O). apply open01_app in Ol as [O1 O2]. destruct (St _ _ _ O1 E) as (u & Eu & H). rewrite app_nil_r in Eu. rewrite <- (firstn_skipn (S j) l) at 1. rewrite Eu. apply H. exact O2. }
          rewrite E2 in P. rewrite P. exact E'.
      + intros (v & r & E & Hv). destruct (t l) as [[[w|] q]| | |] eqn:Et; try (destruct (P _ _ E)).
        * left. exists (Some w), q. split; [first [exact Et|reflexivity]|]. exists w. split; [reflexivity|]. rewrite P in E. assert (w = v) as -> by congruence. exact Hv.
        * right. destruct (St _ _ _ O Et) as (u & Eu & H). pose proof (steady_shorter t l None q St As O Et) as [Lq _]. assert (Lu : (length u + length q = S k)%nat) by (rewrite <- L, Eu, app_length; reflexivity). exists (length u - 1)%nat. split; [lia|]. replace (S (length u - 1)) with (length u) by (rewrite L in Lq; lia).
          rewrite Eu. rewrite firstn_app, Nat.sub_diag, firstn_O, firstn_all, app_nil_r, skipn_app, Nat.sub_diag, skipn_all. cbn [skipn app]. split; [exists None; split; [|reflexivity]|].
          -- specialize (H [] (Forall_nil _)). rewrite app_nil_r in H. exact H.
          -- exists v, r. split; [rewrite <- P; exact E|exact Hv].
    - intros l Hl (o & r & E & v & -> & _) (j & Hj & (w & F & ->) & _). pose proof (ud_open _ _ Hl) as O. assert (E2 : t l = Ok (None, skipn (S j) l)).
      { assert (Ol : open01 (firstn (S j) l ++ skipn (S j) l)) by (rewrite firstn_skipn; exact O). apply open01_app in Ol as [O1 O2]. destruct (St _ _ _ O1 F) as (u & Eu & H). rewrite app_nil_r in Eu. rewrite <- (firstn_skipn (S j) l) at 1. rewrite Eu. apply H. exact O2. }
      rewrite E in E2. discriminate. }
  assert (PP : exists p : nat -> R, forall k, prob k (ret s B) (p k)).
  { pose (D := fix D (k : nat) : nat -> R := match k with O => fun _ => 0 | S m => fun j => if Nat.eq_dec j (S m) then pb (S m) + sum_f_R0 (fun j => c j * D m (m - j)%nat) m else D m j end).
    assert (G : forall k j, (j <= k)%nat -> prob j (ret s B) (D k j)).
    { induction k as [|k IH]; intros j Hj.
      - assert (j = O) as -> by lia. apply prob_never. intros l [L _] (v & r & E & _). destruct l; [exact (AsS v r E)|discriminate].
      - cbn [D]. destruct (Nat.eq_dec j (S k)) as [->|N]; [apply step; exact IH|apply IH; lia]. }
    exists (fun k => D k k). intros k. apply G. lia. }
  destruct PP as (p & Hp).
  assert (P0 : forall k, 0 <= p k <= 1) by (intros k; exact (prob_bounds _ _ _ (Hp k))).
  assert (Pm : forall k, p k <= p (S k)).
  { intros k. destruct (prob_exact s B p Ss AsS Hp) as [_ H]. pose proof (prob_bounds _ _ _ (H k)). lra. }
  assert (C0 : forall j, 0 <= c j) by (intros j; exact (proj1 (prob_bounds _ _ _ (Hc j)))).
  destruct (ex_finite_lim_seq_incr p 1 Pm ltac:(intros k; apply P0)) as (L & HL).
  assert (SC : forall k, sum_f_R0 c k = pn (S k)) by (induction k as [|k IH]; cbn [sum_f_R0]; [unfold c; rewrite N0; ring|rewrite IH; unfold c; ring]).
  assert (LC : is_lim_seq (fun k => sum_f_R0 c k) (1 - a)) by (apply (is_lim_seq_ext (fun k => pn (S k))); [intros k; symmetry; apply SC|apply is_lim_seq_incr_1 in Ln; exact Ln]).
  assert (EQ : L = b + (1 - a) * L).
  { assert (Q1 : is_lim_seq (fun k => p (S k)) L) by (apply is_lim_seq_incr_1 in HL; exact HL).
    assert (Q2 : is_lim_seq (fun k => p (S k)) (b + (1 - a) * L)).
    { apply (is_lim_seq_ext (fun k => pb (S k) + sum_f_R0 (fun j => c j * p (k - j)%nat) k)); [intros k; exact (prob_unique _ _ _ _ (step k p (fun j _ => Hp j)) (Hp (S k)))|]. apply is_lim_seq_plus'; [apply is_lim_seq_incr_1 in Lb; exact Lb|]. apply conv_lim; try assumption. intros j; apply P0. }
    apply is_lim_seq_unique in Q1. apply is_lim_seq_unique in Q2. rewrite Q1 in Q2. congruence. }
  exists p. split; [exact Hp|]. replace (b / a) with L; [exact HL|]. apply Rmult_eq_reg_r with a; [|lra]. unfold Rdiv. rewrite Rmult_assoc, Rinv_l by lra. lra.
Qed.

(** a last number that does not change what is asked of the result *)
Lemma law_then {A C} (s : rand R A) (s' : rand R C) (h : A -> R -> C) (B : A -> Prop) (B' : C -> Prop) q : steady s -> asks s ->
  (forall ds w r, open01 ds -> (s' ds = Ok (w, r) <-> exists v x, s ds = Ok (v, x :: r) /\ w = h v x)) -> (forall v x ds r, open01 ds -> s ds = Ok (v, x :: r) -> (B' (h v x) <-> B v)) -> law s B q -> law s' B' q.
Proof.
  intros St As E HB (p & H & L). exists (fun k => match k with O => 0 | S m => p m end). split; [|apply is_lim_seq_incr_1; exact L]. intros [|k].
  - apply prob_never. intros l [Ll _] (v & r & X & _). destruct l; [|discriminate]. apply (E [] _ _ (Forall_nil _)) in X as (w & x & X & _). exact (As _ _ X).
  - pose proof (prob_firstn k 1 _ _ (H k)) as F. rewrite Nat.add_1_r in F. eapply prob_ext; [|exact F]. intros l Hl. cbv beta. pose proof (ud_open _ _ Hl) as O. pose proof (ud_first _ k _ Hl ltac:(lia)) as Hf. split.
    + intros Rt. fold (ret s B (firstn k l)) in Rt. apply (ret_exact s B _ St (ud_open _ _ Hf)) in Rt as (j & Hj & v & X & Hv). destruct Hf as [Lf _]. rewrite Lf in Hj. rewrite firstn_firstn, Nat.min_l in X by lia. destruct Hl as [Ll _].
      assert (X2 : s l = Ok (v, skipn j l)). { assert (Ol : open01 (firstn j l ++ skipn j l)) by (rewrite firstn_skipn; exact O). apply open01_app in Ol as [O1 O2]. destruct (St _ _ _ O1 X) as (u & Eu & H'). rewrite app_nil_r in Eu. rewrite <- (firstn_skipn j l) at 1. rewrite Eu. apply H'. exact O2. }
      destruct (skipn j l) as [|x r] eqn:Sk; [apply (f_equal (@length R)) in Sk; rewrite skipn_length in Sk; cbn in Sk; lia|]. exists (h v x), r. split; [apply (E l _ _ O); exists v, x; tauto|apply (HB v x l r O X2); exact Hv].
    + intros (w & r & X & Hw). apply (E l _ _ O) in X as (v & x & X & ->). apply (HB v x l r O X) in Hw. destruct (St _ _ _ O X) as (u & Eu & H'). fold (ret s B (firstn k l)). apply (ret_exact s B _ St (ud_open _ _ Hf)). exists (length u). destruct Hl as [Ll _]. destruct Hf as [Lf _]. rewrite Lf. assert (length u <= k)%nat as Lu by (apply (f_equal (@length R)) in Eu; rewrite app_length in Eu; cbn in Eu; lia). split; [exact Lu|].
      rewrite firstn_firstn, Nat.min_l by lia. rewrite Eu, firstn_app, Nat.sub_diag, firstn_O, firstn_all, app_nil_r. exists v. split; [|exact Hw]. specialize (H' [] (Forall_nil _)). rewrite app_nil_r in H'. exact H'.
Qed.
(** a last number [x] that makes the event [x <= t] *)
Lemma prob_head i t : 0 <= t <= 1 -> prob i (fun l => exists x r, l = x :: r /\ x <= t) (match i with O => 0 | S _ => t end).
Proof.
  intros Ht. destruct i as [|i]; [apply prob_never; intros l [L _] (x & r & -> & _); discriminate|].
  exists (fun l => match l with x :: _ => if Rle_dec x t then 1 else 0 | _ => 0 end). split.
  - intros l [L _]. destruct l as [|x l]; [discriminate|]. destruct (Rle_dec x t) as [Q|Q]; [left; split; [exists x, l; tauto|reflexivity]|right; split; [intros (z & r & E & H); injection E as <- <-; contradiction|reflexivity]].
  - exists (fun x => if Rle_dec x t then 1 else 0). split; [intros x Hx; apply expect_const|]. eapply iR_eq; [|apply (iR_step _ t 1 0 Ht)]; [ring| |]; intros x Hx; destruct (Rle_dec x t); try reflexivity; lra.
Qed.
Lemma law_last {A C} (s : rand R A) (s' : rand R C) (h : A -> R -> C) (B : A -> Prop) (B' : C -> Prop) q t : steady s -> asks s -> 0 <= t <= 1 ->
  (forall ds w r, open01 ds -> (s' ds = Ok (w, r) <-> exists v x, s ds = Ok (v, x :: r) /\ w = h v x)) -> (forall v x ds r, open01 ds -> s ds = Ok (v, x :: r) -> (B' (h v x) <-> B v /\ x <= t)) -> law s B q -> law s' B' (q * t).
Proof.
  intros St As Ht E HB (p & H & L). exists (fun k => match k with O => 0 | S m => p m * t end). split; [|apply is_lim_seq_incr_1; apply (is_lim_seq_mult' p (fun _ => t) q t L (is_lim_seq_const t))]. intros [|k].
  - apply prob_never. intros l [Ll _] (v & r & X & _). destruct l; [|discriminate]. apply (E [] _ _ (Forall_nil _)) in X as (w & x & X & _). exact (As _ _ X).
  - destruct (prob_exact s B p St As H) as [P0 Hc]. pose proof (prob_conv (exact s B) (fun l => exists x r, l = x :: r /\ x <= t) (fun j => p (S j) - p j) (fun i => match i with O => 0 | S _ => t end) k Hc (fun j _ => prob_head j t Ht) (fun l i j O Hi Hj E F => exact_unique s _ _ l i j St O Hi Hj E F)) as PC.
    eapply prob_val; [|eapply prob_ext; [|exact PC]].
    + clear - P0. assert (G : forall n, (n <= k)%nat -> sum_f_R0 (fun j => (p (S j) - p j) * match (k - j)%nat with O => 0 | S _ => t end) n = if Nat.ltb n k then p (S n) * t else p k * t).
      { induction n as [|n IH]; intros Ln; cbn [sum_f_R0].
        - destruct (Nat.ltb_spec 0 k); [rewrite Nat.sub_0_r; destruct k; [lia|]; rewrite P0; ring|]. assert (k = O) as -> by lia. cbn. rewrite P0. ring.
        - rewrite IH by lia. destruct (Nat.ltb_spec n k); [|lia]. destruct (Nat.ltb_spec (S n) k) as [Q|Q].
          + destruct (k - S n)%nat eqn:K; [lia|]. ring.
          + assert (k = S n) as -> by lia. rewrite Nat.sub_diag. ring. }
      etransitivity; [exact (G k (le_n _))|]. destruct (Nat.ltb_spec k k); [lia|reflexivity].
    + intros l Hl. cbv beta. pose proof (ud_open _ _ Hl) as O. destruct Hl as [Ll _]. 
      assert (K : forall j v, (j <= length l)%nat -> s (firstn j l) = Ok (v, []) -> s l = Ok (v, skipn j l)). { intros j v Hj X. assert (Ol : open01 (firstn j l ++ skipn j l)) by (rewrite firstn_skipn; exact O). apply open01_app in Ol as [O1 O2]. destruct (St _ _ _ O1 X) as (u & Eu & H'). rewrite app_nil_r in Eu. rewrite <- (firstn_skipn j l) at 1. rewrite Eu. apply H'. exact O2. }
      split.
      * intros (j & Hj & (v & X & Hv) & x & r & Sk & Hx). apply K in X; [|lia]. rewrite Sk in X. exists (h v x), r. split; [apply (E l _ _ O); exists v, x; tauto|apply (HB v x l r O X); tauto].
      * intros (w & r & X & Hw). apply (E l _ _ O) in X as (v & x & X & ->). apply (HB v x l r O X) in Hw as [Hv Hx]. destruct (St _ _ _ O X) as (u & Eu & H'). destruct u as [|z u]; [exfalso; specialize (H' [] (Forall_nil _)); cbn in H'; exact (As _ _ H')|].
        exists (length u). assert (length u <= k)%nat as Lu by (apply (f_equal (@length R)) in Eu; rewrite app_length in Eu; cbn in Eu; lia). split; [exact Lu|]. rewrite Eu. change (S (length u)) with (length (z :: u)). rewrite firstn_app, Nat.sub_diag, firstn_O, firstn_all, app_nil_r, skipn_app, Nat.sub_diag, skipn_all. split; [exists v; split; [|exact Hv]; specialize (H' [] (Forall_nil _)); rewrite app_nil_r in H'; exact H'|]. exists x, r. split; [reflexivity|exact Hx].
Qed.
