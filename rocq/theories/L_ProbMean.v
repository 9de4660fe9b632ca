(** * Expected values of samplers that follow a density *)
From Coq Require Import Reals Lra Lia List Arith. From Coquelicot Require Import Coquelicot.
From Verif Require Import Base S_Prob S_Mean L_Prob. Import ListNotations.
Local Open Scope R_scope.
Local Notation iR := (@is_RInt R_NormedModule).

(** the expected value as a function *)
Fixpoint Ex (n : nat) (f : list R -> R) : R :=
  match n with O => f [] | S m => RInt (fun x => Ex m (fun l => f (x :: l))) 0 1 end.
Lemma expect_Ex n : forall f v, expect n f v -> v = Ex n f.
Proof.
  induction n as [|n IH]; intros f v H; cbn in *; [exact H|]. destruct H as (g & Hg & I). symmetry.
  apply (@is_RInt_unique R_CompleteNormedModule). apply (@is_RInt_ext R_NormedModule g); [|exact I]. rewrite Rmin_left, Rmax_right by lra. intros x Hx. exact (IH _ _ (Hg x Hx)).
Qed.
Lemma iR_dist (f g : R -> R) (u v e : R) : iR f 0 1 u -> iR g 0 1 v -> (forall x, 0 < x < 1 -> Rabs (f x - g x) <= e) -> Rabs (u - v) <= e.
Proof.
  intros If Ig H. assert (I : iR (fun x => f x - g x) 0 1 (u - v)) by exact (@is_RInt_minus R_NormedModule f g 0 1 u v If Ig).
  assert (C : forall c : R, iR (fun _ => c) 0 1 c) by (intros c; apply (iR_eq _ _ _ ((1 - 0) * c)); [lra|exact (@is_RInt_const R_NormedModule 0 1 c)]).
  apply Rabs_le. split.
  - apply (is_RInt_le (fun _ => - e) (fun x => f x - g x) 0 1); [lra|apply C|exact I|]. intros x Hx. specialize (H x Hx). apply Rabs_le_between in H. lra.
  - apply (is_RInt_le (fun x => f x - g x) (fun _ => e) 0 1); [lra|exact I|apply C|]. intros x Hx. specialize (H x Hx). apply Rabs_le_between in H. lra.
Qed.
(** uniform limits *)
Lemma expect_limit n : forall (f : list R -> R) (F : nat -> list R -> R) (V eps : nat -> R), is_lim_seq eps 0 -> (forall j, expect n (F j) (V j)) ->
  (forall j l, unit_draws n l -> Rabs (F j l - f l) <= eps j) -> exists v, expect n f v /\ forall j, Rabs (V j - v) <= eps j.
Proof.
  induction n as [|n IH]; intros f F V eps L HF B.
  - exists (f []). split; [reflexivity|]. intros j. rewrite (HF j). apply B. split; [reflexivity|constructor].
  - pose (cut := fun (h : R -> R) x => if Rlt_dec 0 x then if Rlt_dec x 1 then h x else 0 else 0).
    assert (Cin : forall h x, 0 < x < 1 -> cut h x = h x) by (intros h x [A1 A2]; unfold cut; destruct (Rlt_dec 0 x); [destruct (Rlt_dec x 1); [reflexivity|lra]|lra]).
    pose (g := cut (fun x => Ex n (fun l => f (x :: l)))). pose (G := fun j => cut (fun x => Ex n (fun l => F j (x :: l)))).
    assert (IG : forall j, iR (G j) 0 1 (V j) /\ forall x, 0 < x < 1 -> expect n (fun l => F j (x :: l)) (G j x)).
    { intros j. destruct (HF j) as (h & Hh & I). assert (E : forall x, 0 < x < 1 -> h x = G j x) by (intros x Hx; unfold G; rewrite Cin by exact Hx; exact (expect_Ex _ _ _ (Hh x Hx))). split.
      - apply (@is_RInt_ext R_NormedModule h); [|exact I]. rewrite Rmin_left, Rmax_right by lra. exact E.
      - intros x Hx. rewrite <- E by exact Hx. exact (Hh x Hx). }
    assert (Hg : forall x, 0 < x < 1 -> expect n (fun l => f (x :: l)) (g x) /\ forall j, Rabs (G j x - g x) <= eps j).
    { intros x Hx. destruct (IH (fun l => f (x :: l)) (fun j l => F j (x :: l)) (fun j => G j x) eps L) as (v & Hv & D).
      - intros j. apply (proj2 (IG j) x Hx).
      - intros j l Hl. apply B. apply ud_cons. split; assumption.
      - assert (v = g x) as <- by (unfold g; rewrite Cin by exact Hx; exact (expect_Ex _ _ _ Hv)). split; assumption. }
    assert (E0 : forall j, 0 <= eps j).
    { intros j. apply Rle_trans with (2 := proj2 (Hg (1/2) ltac:(lra)) j). apply Rabs_pos. }
    assert (U : filterlim G Hierarchy.eventually (locally (T := fct_UniformSpace R R_UniformSpace) g)).
    { apply filterlim_locally. intros e. apply is_lim_seq_spec in L. destruct (L e) as (N & HN). exists N. intros j Hj x. pose proof (HN j Hj) as HN2. clear HN. rename HN2 into HN. rewrite Rminus_0_r, Rabs_right in HN by (apply Rle_ge, E0).
      change (Rabs (G j x - g x) < e). unfold G, g, cut in *. destruct (Rlt_dec 0 x) as [A1|A1]; [destruct (Rlt_dec x 1) as [A2|A2]|].
      - destruct (Hg x (conj A1 A2)) as [_ D]. specialize (D j). destruct (Rlt_dec 0 x); [|lra]. destruct (Rlt_dec x 1); [|lra]. lra.
      - rewrite Rminus_0_r, Rabs_R0. apply cond_pos.
      - rewrite Rminus_0_r, Rabs_R0. apply cond_pos. }
    destruct (filterlim_RInt (V := R_CompleteNormedModule) G 0 1 Hierarchy.eventually _ g V (fun j => proj1 (IG j)) U) as (v & _ & Iv).
    exists v. split; [exists g; split; [intros x Hx; exact (proj1 (Hg x Hx))|exact Iv]|].
    intros j. apply (iR_dist (G j) g); [exact (proj1 (IG j))|exact Iv|]. intros x Hx. exact (proj2 (Hg x Hx) j).
Qed.

Section Mean.
  Variables (s : rand R R) (a b L : R) (f g : R -> R) (m : R).
  Hypothesis Hab : a < b.
  Hypothesis Hrange : forall ds v r, Forall (fun x => 0 < x < 1) ds -> s ds = Ok (v, r) -> a <= v <= b.
  Hypothesis Hdens : has_density s a b f.
  Hypothesis Hf : forall x, a <= x <= b -> 0 <= f x.
  Hypothesis HL : forall x y, a <= x <= b -> a <= y <= b -> Rabs (g x - g y) <= L * Rabs (x - y).
  Hypothesis Hm : iR (fun x => f x * g x) a b m.
  Definition ind1 (e v : R) : R := if Rle_dec v e then 1 else 0.
  Definition over (h : R -> R) (ds : list R) : R := match s ds with Ok (v, _) => h v | _ => 0 end.
  Definition pt (N i : nat) : R := a + INR i * ((b - a) / INR N).
  Fixpoint stepF (N i : nat) (v : R) : R := match i with O => g a * ind1 a v | S i' => stepF N i' v + g (pt N i) * (ind1 (pt N i) v - ind1 (pt N i') v) end.
  Definition Q (e : R) : R := RInt f a e.
  Fixpoint stepM (N i : nat) : R := match i with O => 0 | S i' => stepM N i' + g (pt N i) * (Q (pt N i) - Q (pt N i')) end.

  Lemma L_nonneg : 0 <= L.
  Proof. pose proof (HL a b ltac:(lra) ltac:(lra)) as H. pose proof (Rabs_pos (g a - g b)). destruct (Rle_dec 0 L); [assumption|]. exfalso. assert (0 < Rabs (a - b)) by (apply Rabs_pos_lt; lra). nra. Qed.
  Lemma pt_range N i : (0 < N)%nat -> (i <= N)%nat -> a <= pt N i <= b.
  Proof.
    intros HN Hi. unfold pt. apply lt_INR in HN. cbn in HN. apply le_INR in Hi. pose proof (pos_INR i). assert (D : 0 < (b - a) / INR N) by (apply Rdiv_lt_0_compat; lra).
    split; [nra|]. assert (INR i * ((b - a) / INR N) <= INR N * ((b - a) / INR N)) by (apply Rmult_le_compat_r; lra). replace (INR N * ((b - a) / INR N)) with (b - a) in H0 by (field; lra). lra.
  Qed.
  Lemma pt_S N i : (0 < N)%nat -> pt N (S i) = pt N i + (b - a) / INR N.
  Proof. intros HN. unfold pt. rewrite S_INR. ring. Qed.
  Lemma pt_0 N : pt N 0 = a. Proof. unfold pt. cbn [INR]. ring. Qed.
  Lemma pt_N N : (0 < N)%nat -> pt N N = b. Proof. intros HN. apply lt_INR in HN. cbn in HN. unfold pt. field. lra. Qed.
  Lemma Q_ok e : a <= e <= b -> iR f a e (Q e) /\ law s (fun v => v <= e) (Q e).
  Proof.
    intros He. destruct (proj2 Hdens e He) as (q & Lq & Iq). assert (Q e = q) as -> by exact (is_RInt_unique (V := R_CompleteNormedModule) _ _ _ _ Iq). split; assumption.
  Qed.
  Lemma Q_a : Q a = 0. Proof. unfold Q. exact (@RInt_point R_CompleteNormedModule a f). Qed.
  Lemma Q_cell e e' : a <= e <= e' -> e' <= b -> iR f e e' (Q e' - Q e).
  Proof.
    intros H1 H2. destruct (Q_ok e ltac:(lra)) as [I1 _]. destruct (Q_ok e' ltac:(lra)) as [I2 _].
    apply (iR_eq _ _ _ (- Q e + Q e')); [lra|]. apply (@is_RInt_Chasles R_NormedModule f e a e' (- Q e) (Q e')); [|exact I2]. exact (@is_RInt_swap R_NormedModule f e a (Q e) I1).
  Qed.
  Lemma stepF_zero N i v : (0 < N)%nat -> (i <= N)%nat -> pt N i < v -> stepF N i v = 0.
  Proof.
    intros HN. induction i as [|i IH]; intros Hi Hv; cbn [stepF].
    - rewrite pt_0 in Hv. unfold ind1. destruct (Rle_dec v a); [lra|ring].
    - rewrite pt_S in Hv by exact HN. apply lt_INR in HN as HN'. cbn in HN'. assert (D : 0 < (b - a) / INR N) by (apply Rdiv_lt_0_compat; lra).
      rewrite IH by (lia || lra). unfold ind1. rewrite pt_S by exact HN. destruct (Rle_dec v _); [lra|]. destruct (Rle_dec v _); [lra|]. ring.
  Qed.
  Lemma stepF_close N i v : (0 < N)%nat -> (i <= N)%nat -> a <= v <= pt N i -> Rabs (stepF N i v - g v) <= L * ((b - a) / INR N).
  Proof.
    intros HN. pose proof L_nonneg as LP. apply lt_INR in HN as HN'. cbn in HN'. assert (D : 0 < (b - a) / INR N) by (apply Rdiv_lt_0_compat; lra).
    induction i as [|i IH]; intros Hi Hv; cbn [stepF].
    - rewrite pt_0 in Hv. replace v with a by lra. unfold ind1. destruct (Rle_dec a a); [|lra]. replace (g a * 1 - g a) with 0 by ring. rewrite Rabs_R0. apply Rmult_le_pos; lra.
    - pose proof (pt_range N i HN ltac:(lia)). pose proof (pt_range N (S i) HN Hi) as HS. rewrite pt_S in Hv by exact HN. destruct (Rle_dec v (pt N i)) as [C|C].
      + unfold ind1 at 1 2. rewrite pt_S by exact HN. destruct (Rle_dec v (pt N i + _)); [|lra]. destruct (Rle_dec v (pt N i)); [|lra]. rewrite Rminus_diag_eq with (r1 := 1) by reflexivity. rewrite Rmult_0_r, Rplus_0_r. apply IH; [lia|lra].
      + rewrite stepF_zero by (assumption || lia || lra). unfold ind1. destruct (Rle_dec v (pt N (S i))); [|rewrite pt_S in n by exact HN; lra]. destruct (Rle_dec v (pt N i)); [lra|].
        replace (0 + g (pt N (S i)) * (1 - 0) - g v) with (g (pt N (S i)) - g v) by ring. eapply Rle_trans; [apply HL; [exact HS|rewrite pt_S in HS by exact HN; lra]|]. apply Rmult_le_compat_l; [exact LP|]. rewrite pt_S by exact HN. rewrite Rabs_right; lra.
  Qed.
  Lemma over_ind e : a <= e <= b -> exists p : nat -> R, (forall k, expect k (over (ind1 e)) (p k)) /\ is_lim_seq p (Q e).
  Proof.
    intros He. destruct (proj2 (Q_ok e He)) as (p & Hp & Lp). exists p. split; [|exact Lp]. intros k. destruct (Hp k) as (h & Hh & X). apply (expect_ext k h); [|exact X].
    intros l Hl. unfold over, ind1. destruct (Hh l Hl) as [[A ->]|[A ->]].
    - destruct A as (v & r & -> & B). destruct (Rle_dec v e); [reflexivity|lra].
    - destruct (s l) as [[v r]| | |] eqn:E; try reflexivity. destruct (Rle_dec v e) as [C|C]; [|reflexivity]. exfalso. apply A. exists v, r. split; [reflexivity|exact C].
  Qed.
  Lemma step_expect N i : (0 < N)%nat -> (i <= N)%nat -> exists c : nat -> R, (forall k, expect k (over (stepF N i)) (c k)) /\ is_lim_seq c (stepM N i).
  Proof.
    intros HN. induction i as [|i IH]; intros Hi.
    - destruct (over_ind a ltac:(lra)) as (p & Hp & Lp). exists (fun k => g a * p k + 0 * p k). split.
      + intros k. apply (expect_ext k (fun l => g a * over (ind1 a) l + 0 * over (ind1 a) l)); [|apply expect_lin; apply Hp]. intros l _. unfold over. cbn [stepF]. destruct (s l) as [[v r]| | |]; ring.
      + rewrite Q_a in Lp. cbn [stepM]. apply (is_lim_seq_ext (fun k => g a * p k)); [intros k; ring|]. replace (Finite 0) with (Rbar_mult (g a) 0) by (cbn; f_equal; ring). apply is_lim_seq_scal_l. exact Lp.
    - destruct (IH ltac:(lia)) as (c & Hc & Lc). destruct (over_ind _ (pt_range N i HN ltac:(lia))) as (p & Hp & Lp). destruct (over_ind _ (pt_range N (S i) HN Hi)) as (p' & Hp' & Lp').
      exists (fun k => 1 * c k + g (pt N (S i)) * (1 * p' k + -1 * p k)). split.
      + intros k. apply (expect_ext k (fun l => 1 * over (stepF N i) l + g (pt N (S i)) * (1 * over (ind1 (pt N (S i))) l + -1 * over (ind1 (pt N i)) l))).
        * intros l _. unfold over. cbn [stepF]. destruct (s l) as [[v r]| | |]; ring.
        * apply expect_lin; [apply Hc|]. apply expect_lin; [apply Hp'|apply Hp].
      + cbn [stepM]. apply (is_lim_seq_ext (fun k => c k + g (pt N (S i)) * (p' k - p k))); [intros k; ring|]. apply is_lim_seq_plus'; [exact Lc|].
        replace (Finite (g (pt N (S i)) * (Q (pt N (S i)) - Q (pt N i)))) with (Rbar_mult (g (pt N (S i))) (Q (pt N (S i)) - Q (pt N i))) by reflexivity. apply is_lim_seq_scal_l. apply is_lim_seq_minus'; assumption.
  Qed.
  Lemma fg_cell e e' : a <= e <= e' -> e' <= b -> exists v : R, iR (fun x => f x * g x) e e' v.
  Proof.
    intros H1 H2. assert (X : ex_RInt (V := R_NormedModule) (fun x => f x * g x) a b) by (exists m; exact Hm).
    pose proof (@ex_RInt_Chasles_2 R_CompleteNormedModule _ a e b ltac:(lra) X) as X1. exact (@ex_RInt_Chasles_1 R_CompleteNormedModule _ e e' b ltac:(lra) X1).
  Qed.
  Lemma stepM_close N i : (0 < N)%nat -> (i <= N)%nat -> exists v, iR (fun x => f x * g x) a (pt N i) v /\ Rabs (stepM N i - v) <= L * ((b - a) / INR N) * Q (pt N i).
  Proof.
    intros HN. pose proof L_nonneg as LP. apply lt_INR in HN as HN'. cbn in HN'. assert (D : 0 < (b - a) / INR N) by (apply Rdiv_lt_0_compat; lra).
    induction i as [|i IH]; intros Hi.
    - exists 0. rewrite pt_0, Q_a. split; [exact (@is_RInt_point R_NormedModule _ a)|]. cbn [stepM]. rewrite Rminus_0_r, Rabs_R0. lra.
    - destruct (IH ltac:(lia)) as (v & Iv & B). pose proof (pt_range N i HN ltac:(lia)) as R1. pose proof (pt_range N (S i) HN Hi) as R2. pose proof (pt_S N i HN) as ES.
      destruct (fg_cell (pt N i) (pt N (S i)) ltac:(lra) ltac:(lra)) as (w & Iw). exists (v + w). split; [exact (@is_RInt_Chasles R_NormedModule _ _ _ _ _ _ Iv Iw)|].
      pose proof (Q_cell (pt N i) (pt N (S i)) ltac:(lra) ltac:(lra)) as Iq. set (q := Q (pt N (S i)) - Q (pt N i)) in *. set (h := L * ((b - a) / INR N)) in *. set (G := g (pt N (S i))) in *.
      assert (G1 : forall x, pt N i < x < pt N (S i) -> Rabs (g x - G) <= h).
      { intros x Hx. eapply Rle_trans; [apply HL; lra|]. unfold h. apply Rmult_le_compat_l; [exact LP|]. rewrite ES in *. apply Rabs_le. lra. }
      assert (I1 : iR (fun x => (G - h) * f x) (pt N i) (pt N (S i)) ((G - h) * q)) by exact (@is_RInt_scal R_NormedModule f _ _ (G - h) q Iq).
      assert (I2 : iR (fun x => (G + h) * f x) (pt N i) (pt N (S i)) ((G + h) * q)) by exact (@is_RInt_scal R_NormedModule f _ _ (G + h) q Iq).
      assert (W1 : (G - h) * q <= w). { apply (is_RInt_le (fun x => (G - h) * f x) (fun x => f x * g x) (pt N i) (pt N (S i))); [lra|exact I1|exact Iw|]. intros x Hx. specialize (G1 x Hx). apply Rabs_le_between in G1. pose proof (Hf x ltac:(lra)). nra. }
      assert (W2 : w <= (G + h) * q). { apply (is_RInt_le (fun x => f x * g x) (fun x => (G + h) * f x) (pt N i) (pt N (S i))); [lra|exact Iw|exact I2|]. intros x Hx. specialize (G1 x Hx). apply Rabs_le_between in G1. pose proof (Hf x ltac:(lra)). nra. }
      cbn [stepM]. fold G q. replace (stepM N i + G * q - (v + w)) with ((stepM N i - v) + (G * q - w)) by ring. eapply Rle_trans; [apply Rabs_triang|].
      replace (Q (pt N (S i))) with (Q (pt N i) + q) by (unfold q; ring). rewrite Rmult_plus_distr_l. apply Rplus_le_compat; [exact B|]. apply Rabs_le. split; nra.
  Qed.
  Lemma mean_density : mean s g m.
  Proof.
    pose proof L_nonneg as LP. set (eps := fun j => L * ((b - a) / INR (S j))).
    assert (Leps : is_lim_seq eps 0).
    { apply (is_lim_seq_ext (fun j => L * (b - a) * / INR (S j))); [intros j; unfold eps, Rdiv; ring|]. replace (Finite 0) with (Rbar_mult (L * (b - a)) 0) by (cbn; f_equal; ring). apply is_lim_seq_scal_l.
      apply (is_lim_seq_incr_1 (fun n => / INR n)). replace (Finite 0) with (Rbar_inv p_infty) by reflexivity. apply is_lim_seq_inv; [apply is_lim_seq_INR|discriminate]. }
    assert (K : forall k, exists v, expect k (over g) v /\ forall j, Rabs (Ex k (over (stepF (S j) (S j))) - v) <= eps j).
    { intros k. apply expect_limit with (F := fun j => over (stepF (S j) (S j))); [exact Leps| |].
      - intros j. destruct (step_expect (S j) (S j) ltac:(lia) ltac:(lia)) as (c & Hc & _). rewrite <- (expect_Ex k _ _ (Hc k)). apply Hc.
      - intros j l [_ Hl]. unfold over. destruct (s l) as [[v r]| | |] eqn:E.
        + apply stepF_close; [lia|lia|]. rewrite pt_N by lia. exact (Hrange _ _ _ Hl E).
        + rewrite Rminus_0_r, Rabs_R0. unfold eps. apply Rmult_le_pos; [exact LP|]. left. apply Rdiv_lt_0_compat; [lra|]. apply lt_0_INR. lia.
        + rewrite Rminus_0_r, Rabs_R0. unfold eps. apply Rmult_le_pos; [exact LP|]. left. apply Rdiv_lt_0_compat; [lra|]. apply lt_0_INR. lia.
        + rewrite Rminus_0_r, Rabs_R0. unfold eps. apply Rmult_le_pos; [exact LP|]. left. apply Rdiv_lt_0_compat; [lra|]. apply lt_0_INR. lia. }
    exists (fun k => Ex k (over g)). split.
    - intros k. destruct (K k) as (v & Hv & _). pose proof (expect_Ex _ _ _ Hv) as ->. exact Hv.
    - apply is_lim_seq_spec. intros e. apply is_lim_seq_spec in Leps. assert (He : 0 < e / 4) by (pose proof (cond_pos e); lra). destruct (Leps (mkposreal _ He)) as (j & Hj). specialize (Hj j (le_n j)). cbn [pos] in Hj. rewrite Rminus_0_r in Hj.
      assert (E0 : eps j < e / 4) by (apply Rle_lt_trans with (Rabs (eps j)); [apply Rle_abs|exact Hj]).
      destruct (step_expect (S j) (S j) ltac:(lia) ltac:(lia)) as (c & Hc & Lc). destruct (stepM_close (S j) (S j) ltac:(lia) ltac:(lia)) as (v & Iv & B). rewrite pt_N in Iv, B by lia.
      assert (v = m) as -> by (rewrite <- (is_RInt_unique (V := R_CompleteNormedModule) _ _ _ _ Iv); exact (is_RInt_unique (V := R_CompleteNormedModule) _ _ _ _ Hm)).
      fold (eps j) in B. assert (Qb : 0 <= Q b <= 1) by (apply (law_bounds s (fun v => v <= b)); apply (Q_ok b); lra). assert (E1 : 0 <= eps j). { unfold eps. apply Rmult_le_pos; [exact LP|]. left. apply Rdiv_lt_0_compat; [lra|]. apply lt_0_INR. lia. }
      apply is_lim_seq_spec in Lc. destruct (Lc (mkposreal _ He)) as (k0 & Hk). exists k0. intros k Hkk. specialize (Hk k Hkk). cbn [pos] in Hk.
      destruct (K k) as (v & Hv & Bv). specialize (Bv j). rewrite <- (expect_Ex _ _ _ Hv). rewrite <- (expect_Ex k _ _ (Hc k)) in Bv.
      replace (v - m) with (- (c k - v) + (c k - stepM (S j) (S j)) + (stepM (S j) (S j) - m)) by ring.
      eapply Rle_lt_trans; [apply Rabs_triang|]. eapply Rle_lt_trans; [apply Rplus_le_compat_r, Rabs_triang|]. rewrite Rabs_Ropp. assert (eps j * Q b <= eps j) by nra. pose proof (cond_pos e). lra.
  Qed.
End Mean.
Lemma mean_unique {A} (s : rand R A) (g : A -> R) u v : mean s g u -> mean s g v -> u = v.
Proof.
  intros (p & Hp & Lp) (q & Hq & Lq). assert (E : forall k, q k = p k) by (intros k; eapply expect_unique; [apply Hq|apply Hp]).
  apply (is_lim_seq_ext _ _ _ E) in Lq. apply is_lim_seq_unique in Lp, Lq. rewrite Lp in Lq. injection Lq. auto.
Qed.
