(** * Expected values: uniform limits, exchanging the order of integration, functions of a random variable with a density *)
From Coq Require Import Reals Lra Lia List Arith. From Coquelicot Require Import Coquelicot.
From Verif Require Import Base S_Prob L_Prob L_ProbEv. Import ListNotations.
Local Open Scope R_scope.
Local Notation iR := (@is_RInt R_NormedModule).

(** ** the expected value as a function *)
Fixpoint Ex (n : nat) (f : list R -> R) : R := match n with O => f [] | S m => RInt (fun x => Ex m (fun l => f (x :: l))) 0 1 end.
Lemma expect_Ex n : forall f v, expect n f v -> Ex n f = v.
Proof.
  induction n as [|n IH]; intros f v H; cbn in *; [congruence|]. destruct H as (g & H & I). apply (@is_RInt_unique R_CompleteNormedModule). apply (iR_ext g); [lra| |exact I].
  intros x Hx. symmetry. apply IH. apply H. exact Hx.
Qed.
Lemma expect_S n f v : expect (S n) f v -> (forall x, 0 < x < 1 -> expect n (fun l => f (x :: l)) (Ex n (fun l => f (x :: l)))) /\ iR (fun x => Ex n (fun l => f (x :: l))) 0 1 v.
Proof.
  intros (g & H & I). assert (E : forall x, 0 < x < 1 -> g x = Ex n (fun l => f (x :: l))) by (intros x Hx; symmetry; apply expect_Ex; apply H; exact Hx).
  split; [intros x Hx; rewrite <- E by exact Hx; apply H; exact Hx|]. apply (iR_ext g); [lra|exact E|exact I].
Qed.
(** ** uniform limits *)
Lemma inv_small eps : 0 < eps -> exists N, forall k, (N <= k)%nat -> / INR (S k) < eps.
Proof.
  intros H. destruct (archimed_cor1 eps H) as (N & A & B). exists N. intros k L. apply Rle_lt_trans with (/ INR N); [|exact A]. apply Rinv_le_contravar; [apply lt_0_INR; exact B|apply le_INR; lia].
Qed.
Lemma iR_lim (f : nat -> R -> R) (v : nat -> R) (g : R -> R) : (forall k, iR (f k) 0 1 (v k)) -> (forall k x, 0 < x < 1 -> Rabs (f k x - g x) <= / INR (S k)) -> exists I : R, is_lim_seq v I /\ iR g 0 1 I.
Proof.
  intros F U. pose (cut := fun (h : R -> R) x => if Rlt_dec 0 x then if Rlt_dec x 1 then h x else 0 else 0).
  assert (C : forall h x, 0 < x < 1 -> h x = cut h x) by (intros h x Hx; unfold cut; destruct (Rlt_dec 0 x); [destruct (Rlt_dec x 1); [reflexivity|lra]|lra]).
  destruct (@filterlim_RInt nat R_CompleteNormedModule (fun k => cut (f k)) 0 1 Hierarchy.eventually eventually_filter (cut g) v) as (I & L & X).
  - intros k. apply (iR_ext (f k)); [lra|apply C|apply F].
  - apply filterlim_locally. intros eps. destruct (inv_small eps (cond_pos eps)) as (N & HN). exists N. intros k Lk x. change (Rabs (cut (f k) x - cut g x) < eps). unfold cut.
    destruct (Rlt_dec 0 x); [destruct (Rlt_dec x 1)|]; [|rewrite Rminus_0_r, Rabs_R0; apply cond_pos|rewrite Rminus_0_r, Rabs_R0; apply cond_pos]. apply Rle_lt_trans with (/ INR (S k)); [apply U; lra|apply HN; exact Lk].
  - exists I. split; [exact L|]. apply (iR_ext (cut g)); [lra| |exact X]. intros x Hx. symmetry. apply C. exact Hx.
Qed.
Lemma expect_near n f g u v e : expect n f u -> expect n g v -> (forall l, unit_draws n l -> Rabs (f l - g l) <= e) -> Rabs (u - v) <= e.
Proof.
  intros Hf Hg H. assert (A : u - v <= e).
  { apply (expect_le n (fun l => 1 * f l + (- 1) * g l) (fun _ => e)); [|apply expect_const|]. - eapply expect_val; [|apply expect_lin; [exact Hf|exact Hg]]; lra. - intros l Hl. specialize (H l Hl). apply Rabs_le_between in H. lra. }
  assert (B : - e <= u - v).
  { apply (expect_le n (fun _ => - e) (fun l => 1 * f l + (- 1) * g l)); [apply expect_const| |]. - eapply expect_val; [|apply expect_lin; [exact Hf|exact Hg]]; lra. - intros l Hl. specialize (H l Hl). apply Rabs_le_between in H. lra. }
  apply Rabs_le_between. lra.
Qed.
Lemma expect_lim n : forall (f : nat -> list R -> R) (v : nat -> R) g, (forall k, expect n (f k) (v k)) -> (forall k l, unit_draws n l -> Rabs (f k l - g l) <= / INR (S k)) -> exists I : R, is_lim_seq v I /\ expect n g I.
Proof.
  induction n as [|n IH]; intros f v g H U.
  - exists (g []). split; [|reflexivity]. apply is_lim_seq_spec. intros eps. destruct (inv_small eps (cond_pos eps)) as (N & HN). exists N. intros k Lk. cbn in H. rewrite H. apply Rle_lt_trans with (/ INR (S k)); [|apply HN; exact Lk]. apply U. split; [reflexivity|constructor].
  - assert (G : forall x, 0 < x < 1 -> expect n (fun l => g (x :: l)) (Ex n (fun l => g (x :: l)))).
    { intros x Hx. destruct (IH (fun k l => f k (x :: l)) (fun k => Ex n (fun l => f k (x :: l))) (fun l => g (x :: l))) as (I & _ & E).
      - intros k. apply (proj1 (expect_S n (f k) (v k) (H k))). exact Hx.
      - intros k l Hl. apply U. apply ud_cons. split; assumption.
      - rewrite (expect_Ex _ _ _ E). exact E. }
    destruct (iR_lim (fun k x => Ex n (fun l => f k (x :: l))) v (fun x => Ex n (fun l => g (x :: l)))) as (I & L & X).
    + intros k. apply (proj2 (expect_S n (f k) (v k) (H k))).
    + intros k x Hx. apply (expect_near n (fun l => f k (x :: l)) (fun l => g (x :: l))); [apply (proj1 (expect_S n (f k) (v k) (H k))); exact Hx|apply G; exact Hx|]. intros l Hl. apply U. apply ud_cons. split; assumption.
    + exists I. split; [exact L|]. exists (fun x => Ex n (fun l => g (x :: l))). split; [exact G|exact X].
Qed.
Lemma expect_lim_val n (f : nat -> list R -> R) (v : nat -> R) g I c : (forall k, expect n (f k) (v k)) -> (forall k l, unit_draws n l -> Rabs (f k l - g l) <= / INR (S k)) -> (forall k, Rabs (v k - I) <= c * / INR (S k)) -> expect n g I.
Proof.
  intros H U V. destruct (expect_lim n f v g H U) as (J & L & E). replace I with J; [exact E|].
  assert (L' : is_lim_seq v I).
  { assert (Z : is_lim_seq (fun k => c * / INR (S k)) 0).
    { replace (Finite 0) with (Rbar_mult (Finite c) (Finite 0)) by (cbn; f_equal; ring). apply is_lim_seq_scal_l. apply is_lim_seq_spec. intros eps. destruct (inv_small eps (cond_pos eps)) as (N & HN). exists N. intros k Lk. rewrite Rminus_0_r, Rabs_pos_eq; [apply HN; exact Lk|]. left. apply Rinv_0_lt_compat. apply lt_0_INR. lia. }
    apply is_lim_seq_le_le with (fun k => I - c * / INR (S k)) (fun k => I + c * / INR (S k)).
    - intros k. specialize (V k). apply Rabs_le_between in V. lra.
    - replace (Finite I) with (Finite (I - 0)) by (f_equal; ring). apply is_lim_seq_minus'; [apply is_lim_seq_const|exact Z].
    - replace (Finite I) with (Finite (I + 0)) by (f_equal; ring). apply is_lim_seq_plus'; [apply is_lim_seq_const|exact Z]. }
  apply is_lim_seq_unique in L. apply is_lim_seq_unique in L'. congruence.
Qed.

(** ** a region below a decreasing curve, integrated in the other order *)
Section Swap.
  Variables (phi : R -> R) (I : R).
  Hypothesis B : forall x, 0 < x < 1 -> 0 <= phi x <= 1.
  Hypothesis D : forall x y, 0 < x -> x <= y -> y < 1 -> phi y <= phi x.
  Hypothesis HI : iR phi 0 1 I.
  Definition above (y x : R) : Prop := x = 0 \/ (0 < x < 1 /\ y < phi x).
  Lemma above_lub y : {m | is_lub (above y) m}.
  Proof. apply completeness; [exists 1; intros x [->|[H _]]; lra|exists 0; left; reflexivity]. Qed.
  Definition msr (y : R) : R := proj1_sig (above_lub y).
  Lemma msr_spec y : 0 <= msr y <= 1 /\ (forall x, 0 < x < 1 -> (x < msr y -> y < phi x) /\ (msr y < x -> phi x <= y)).
  Proof.
    unfold msr. destruct (above_lub y) as (m & U & L). cbn. split; [split; [apply U; left; reflexivity|apply L; intros x [->|[H _]]; lra]|]. intros x Hx. split; intros X.
    - destruct (Rlt_dec y (phi x)) as [|N]; [assumption|]. exfalso. assert (m <= x); [|lra]. apply L. intros z [->|[Hz Z]]; [lra|]. destruct (Rle_dec z x); [assumption|]. exfalso. pose proof (D x z ltac:(lra) ltac:(lra) ltac:(lra)). lra.
    - destruct (Rlt_dec y (phi x)) as [N|]; [|lra]. exfalso. assert (x <= m) by (apply U; right; split; [exact Hx|exact N]). lra.
  Qed.
  Section Grid.
    Variable N : nat. Let M := INR (S N). Let xk (k : nat) : R := INR k / M.
    Lemma M_pos : 0 < M. Proof. apply lt_0_INR. lia. Qed.
    Lemma xk_in k : (1 <= k <= N)%nat -> 0 < xk k < 1.
    Proof. intros H. pose proof M_pos. unfold xk. split; [apply Rdiv_lt_0_compat; [apply lt_0_INR; lia|lra]|apply Rlt_div_l; [lra|]]. unfold M. rewrite Rmult_1_l. apply lt_INR. lia. Qed.
    Fixpoint cnt (n : nat) (y : R) : R := match n with O => 0 | S m => cnt m y + if Rlt_dec y (phi (xk (S m))) then 1 else 0 end.
    Fixpoint sm (n : nat) : R := match n with O => 0 | S m => sm m + phi (xk (S m)) end.
    Lemma cnt_bounds y n : (n <= N)%nat -> Rmin (INR n) (msr y * M - 1) <= cnt n y /\ cnt n y <= INR n /\ cnt n y <= msr y * M.
    Proof.
      destruct (msr_spec y) as (MB & MS). pose proof M_pos. induction n as [|n IH]; intros L; cbn [cnt].
      - cbn [INR]. split; [apply Rmin_l|split; [lra|nra]].
      - specialize (IH ltac:(lia)) as (L1 & L2 & L3). rewrite S_INR. pose proof (xk_in (S n) ltac:(lia)) as X. destruct (MS _ X) as [M1 M2]. destruct (Rlt_dec y (phi (xk (S n)))) as [C|C].
        + assert (Q : xk (S n) <= msr y) by (apply Rnot_lt_le; intros Y; specialize (M2 Y); lra). assert (INR n + 1 <= msr y * M). { unfold xk in Q. rewrite S_INR in Q. apply Rle_div_l in Q; lra. }
          split; [|split; lra]. unfold Rmin in *. destruct (Rle_dec (INR n) _), (Rle_dec (INR n + 1) _); lra.
        + assert (Q : msr y <= xk (S n)) by (apply Rnot_lt_le; intros Y; specialize (M1 Y); lra). assert (msr y * M <= INR n + 1). { unfold xk in Q. rewrite S_INR in Q. apply Rle_div_r in Q; lra. }
          split; [|split; lra]. unfold Rmin in *. destruct (Rle_dec (INR n) _), (Rle_dec (INR n + 1) _); lra.
    Qed.
    Lemma cnt_near y : Rabs (cnt N y / M - msr y) <= / M.
    Proof.
      destruct (cnt_bounds y N (le_n _)) as (A & _ & C). destruct (msr_spec y) as (MB & _). pose proof M_pos as MP. assert (ME : M = INR N + 1) by (unfold M; apply S_INR).
      assert (A' : msr y * M - 1 <= cnt N y). { unfold Rmin in A. destruct (Rle_dec (INR N) _); [nra|lra]. }
      replace (cnt N y / M - msr y) with ((cnt N y - msr y * M) * / M) by (field; lra). pose proof (Rinv_0_lt_compat M MP). rewrite Rabs_mult, (Rabs_pos_eq (/ M)) by lra. rewrite <- (Rmult_1_l (/ M)) at 2. apply Rmult_le_compat_r; [lra|]. apply Rabs_le_between. lra.
    Qed.
    Lemma cnt_int n : (n <= N)%nat -> iR (cnt n) 0 1 (sm n).
    Proof.
      induction n as [|n IH]; intros L; cbn [cnt sm].
      - eapply iR_eq; [|apply (iR_const_on (fun _ => 0) 0 1 0); [lra|reflexivity]]. ring.
      - specialize (IH ltac:(lia)). pose proof (B _ (xk_in (S n) ltac:(lia))) as P. apply (@is_RInt_plus R_NormedModule (cnt n)); [exact IH|]. eapply iR_eq; [|apply (iR_step _ (phi (xk (S n))) 1 0 P)]; [ring| |]; intros x Hx; destruct (Rlt_dec x _); lra.
    Qed.
    Lemma sub_ex a b : 0 <= a -> a <= b -> b <= 1 -> ex_RInt phi a b.
    Proof. intros H1 H2 H3. apply (@ex_RInt_Chasles_2 R_CompleteNormedModule phi 0); [lra|]. apply (@ex_RInt_Chasles_1 R_CompleteNormedModule phi 0 b 1); [lra|]. exists I. exact HI. Qed.
    Lemma sm_near n : (n <= N)%nat -> (1 <= n)%nat -> exists A, iR phi 0 (xk n) A /\ sm n / M <= A <= sm n / M + (1 - phi (xk n)) / M.
    Proof.
      pose proof M_pos as MP. induction n as [|n IH]; intros L L1; [lia|]. destruct n as [|n].
      - pose proof (xk_in 1 ltac:(lia)) as X. pose proof (B _ X) as BX. destruct (sub_ex 0 (xk 1)) as (A & HA); try lra. exists A. split; [exact HA|]. cbn [sm]. assert (EX : xk 1 = / M) by (unfold xk; change (INR 1) with 1; field; lra).
        pose proof (iR_const_on (fun _ => phi (xk 1)) 0 (xk 1) _ ltac:(lra) ltac:(reflexivity)) as C1. pose proof (iR_const_on (fun _ => 1) 0 (xk 1) _ ltac:(lra) ltac:(reflexivity)) as C2.
        assert ((xk 1 - 0) * phi (xk 1) <= A) by (apply (is_RInt_le (fun _ => phi (xk 1)) phi 0 (xk 1)); [lra|exact C1|exact HA|intros x Hx; apply D; lra]).
        assert (A <= (xk 1 - 0) * 1) by (apply (is_RInt_le phi (fun _ => 1) 0 (xk 1)); [lra|exact HA|exact C2|intros x Hx; apply B; lra]). replace ((0 + phi (xk 1)) / M) with (xk 1 * phi (xk 1)) by (rewrite EX; field; lra). replace ((1 - phi (xk 1)) / M) with (xk 1 - xk 1 * phi (xk 1)) by (rewrite EX; field; lra). lra.
      - specialize (IH ltac:(lia) ltac:(lia)) as (A & HA & LA). pose proof (xk_in (S n) ltac:(lia)) as X1. pose proof (xk_in (S (S n)) ltac:(lia)) as X2.
        assert (EX : xk (S (S n)) - xk (S n) = / M) by (unfold xk; rewrite (S_INR (S n)); field; lra). pose proof (Rinv_0_lt_compat M MP) as IP. destruct (sub_ex (xk (S n)) (xk (S (S n)))) as (A2 & HA2); try lra.
        exists (A + A2). split; [apply (iR_chasles _ _ (xk (S n))); assumption|]. cbn [sm] in *. set (p := phi (xk (S (S n)))) in *. set (p0 := phi (xk (S n))) in *.
        pose proof (iR_const_on (fun _ => p) (xk (S n)) (xk (S (S n))) _ ltac:(lra) ltac:(reflexivity)) as C1. pose proof (iR_const_on (fun _ => p0) (xk (S n)) (xk (S (S n))) _ ltac:(lra) ltac:(reflexivity)) as C2. rewrite EX in C1, C2.
        assert (/ M * p <= A2) by (apply (is_RInt_le (fun _ => p) phi (xk (S n)) (xk (S (S n)))); [lra|exact C1|exact HA2|intros x Hx; apply D; lra]).
        assert (A2 <= / M * p0) by (apply (is_RInt_le phi (fun _ => p0) (xk (S n)) (xk (S (S n)))); [lra|exact HA2|exact C2|intros x Hx; apply D; lra]).
        replace ((sm n + p0 + p) / M) with ((sm n + p0) / M + / M * p) by (field; lra). replace ((1 - p) / M) with (/ M - / M * p) by (field; lra). replace ((1 - p0) / M) with (/ M - / M * p0) in LA by (field; lra). lra.
    Qed.
    Lemma sm_I : Rabs (sm N / M - I) <= / M.
    Proof.
      pose proof M_pos as MP. pose proof (Rinv_0_lt_compat M MP) as IP. assert (ME : M = INR N + 1) by (unfold M; apply S_INR). destruct (Nat.eq_dec N 0) as [EN|EN].
      - assert (Z0 : forall k, k = 0%nat -> sm k = 0) by (intros k ->; reflexivity). rewrite (Z0 N EN). assert (IN : forall k, k = 0%nat -> INR k = 0) by (intros k ->; reflexivity). assert (M1 : M = 1) by (rewrite ME, (IN N EN); lra). pose proof (iR_const_on (fun _ => 1) 0 1 _ ltac:(lra) ltac:(reflexivity)) as C2. pose proof (iR_const_on (fun _ => 0) 0 1 _ ltac:(lra) ltac:(reflexivity)) as C1.
        assert ((1 - 0) * 0 <= I) by (apply (is_RInt_le (fun _ => 0) phi 0 1); [lra|exact C1|exact HI|intros x Hx; apply B; lra]). assert (I <= (1 - 0) * 1) by (apply (is_RInt_le phi (fun _ => 1) 0 1); [lra|exact HI|exact C2|intros x Hx; apply B; lra]).
        rewrite M1. apply Rabs_le_between. lra.
      - destruct (sm_near N (le_n _) ltac:(lia)) as (A & HA & LA). pose proof (xk_in N ltac:(lia)) as X. assert (EX : 1 - xk N = / M) by (unfold xk; rewrite ME; field; lra). destruct (sub_ex (xk N) 1) as (A2 & HA2); try lra.
        pose proof (iR_chasles _ _ _ _ _ _ HA HA2) as S. assert (EI : A + A2 = I) by (rewrite <- (is_RInt_unique _ _ _ _ S); apply (@is_RInt_unique R_CompleteNormedModule); exact HI).
        pose proof (iR_const_on (fun _ => 0) (xk N) 1 _ ltac:(lra) ltac:(reflexivity)) as C1. pose proof (iR_const_on (fun _ => phi (xk N)) (xk N) 1 _ ltac:(lra) ltac:(reflexivity)) as C2.
        assert ((1 - xk N) * 0 <= A2) by (apply (is_RInt_le (fun _ => 0) phi (xk N) 1); [lra|exact C1|exact HA2|intros x Hx; apply B; lra]).
        assert (A2 <= (1 - xk N) * phi (xk N)) by (apply (is_RInt_le phi (fun _ => phi (xk N)) (xk N) 1); [lra|exact HA2|exact C2|intros x Hx; apply D; lra]). rewrite EX in *. replace ((1 - phi (xk N)) / M) with (/ M - / M * phi (xk N)) in LA by (field; lra). apply Rabs_le_between. lra.
    Qed.
  End Grid.
  Lemma msr_int : iR msr 0 1 I.
  Proof.
    destruct (iR_lim (fun N y => cnt N N y / INR (S N)) (fun N => sm N N / INR (S N)) msr) as (J & L & X).
    - intros k. apply (iR_ext (fun y => / INR (S k) * cnt k k y)); [lra|intros x Hx; unfold Rdiv; ring|]. eapply iR_eq; [|apply (@is_RInt_scal R_NormedModule); apply (cnt_int k k (le_n _))]. change (/ INR (S k) * sm k k = sm k k / INR (S k)). unfold Rdiv. ring.
    - intros k x Hx. apply cnt_near.
    - replace I with J; [exact X|]. assert (L' : is_lim_seq (fun N => sm N N / INR (S N)) I).
      { apply is_lim_seq_spec. intros eps. destruct (inv_small eps (cond_pos eps)) as (N & HN). exists N. intros k Lk. apply Rle_lt_trans with (/ INR (S k)); [apply sm_I|apply HN; exact Lk]. }
      apply is_lim_seq_unique in L. apply is_lim_seq_unique in L'. congruence.
  Qed.
  Lemma swap_prob : prob 2 (fun l => match l with [y; x] => phi x <= y | _ => False end) (1 - I).
  Proof.
    exists (fun l => match l with [y; x] => if Rle_dec (phi x) y then 1 else 0 | _ => 0 end). split.
    - intros l [L F]. destruct l as [|x1 [|x2 [|]]]; try discriminate. destruct (Rle_dec (phi x2) x1); [left|right]; split; auto.
    - exists (fun y => 1 - msr y). split.
      + intros y Hy. exists (fun x => if Rle_dec (phi x) y then 1 else 0). split; [intros; reflexivity|]. destruct (msr_spec y) as (MB & MS). eapply iR_eq; [|apply (iR_step _ (msr y) 0 1 MB)]; [ring| |]; intros x Hx.
        * destruct (MS x ltac:(lra)) as [M1 _]. specialize (M1 ltac:(lra)). destruct (Rle_dec _ y); lra.
        * destruct (MS x ltac:(lra)) as [_ M1]. specialize (M1 ltac:(lra)). destruct (Rle_dec _ y); lra.
      + apply (@is_RInt_minus R_NormedModule (fun _ => 1) msr); [|exact msr_int]. eapply iR_eq; [|apply (iR_const_on (fun _ => 1) 0 1 1); [lra|reflexivity]]. ring.
  Qed.
End Swap.

(** ** functions of a random variable with a density *)
Section Transfer.
  Variables (n : nat) (phi : list R -> R) (f h : R -> R) (S0 : R).
  Hypothesis P : forall l, unit_draws n l -> 0 < phi l.
  Hypothesis S0p : 0 < S0.
  Hypothesis law_phi : forall s, 0 <= s <= S0 -> exists q, prob n (fun l => phi l <= s) q /\ iR f 0 s q.
  Hypothesis fpos : forall x, 0 < x < S0 -> 0 <= f x.
  Hypothesis hc : forall x, 0 <= x <= S0 -> continuity_pt h x.
  Variable I : R.
  Hypothesis HI : iR (fun x => h x * f x) 0 S0 I.
  Let le (s : R) (l : list R) : R := if Rle_dec (phi l) s then 1 else 0.
  Let F (s : R) : R := RInt f 0 s.
  Lemma F_int s : 0 <= s <= S0 -> iR f 0 s (F s).
  Proof. intros H. destruct (law_phi s H) as (q & _ & Q). unfold F. rewrite (is_RInt_unique _ _ _ _ Q). exact Q. Qed.
  Lemma F_exp s : 0 <= s <= S0 -> expect n (le s) (F s).
  Proof.
    intros H. destruct (law_phi s H) as (q & (g & G & X) & Q). unfold F. rewrite (is_RInt_unique _ _ _ _ Q). apply (expect_ext n g); [|exact X]. intros l Hl. unfold le. destruct (G l Hl) as [[a ->]|[a ->]], (Rle_dec (phi l) s); try reflexivity; contradiction.
  Qed.
  Section Mesh.
    Variables (M : nat) (e : R). Hypothesis Mp : (0 < M)%nat.
    Let s (k : nat) : R := INR k * S0 / INR M.
    Hypothesis near : forall x y, 0 <= x <= S0 -> 0 <= y <= S0 -> Rabs (x - y) <= S0 / INR M -> Rabs (h x - h y) <= e.
    Fixpoint stp (k : nat) (l : list R) : R := match k with O => 0 | S j => stp j l + h (s (S j)) * (le (s (S j)) l - le (s j) l) end.
    Fixpoint stv (k : nat) : R := match k with O => 0 | S j => stv j + h (s (S j)) * (F (s (S j)) - F (s j)) end.
    Lemma s_in k : (k <= M)%nat -> 0 <= s k <= S0.
    Proof.
      intros H. assert (0 < INR M) by (apply lt_0_INR; lia). unfold s. pose proof (pos_INR k). apply le_INR in H. split; [apply Rle_div_r; [lra|nra]|apply Rle_div_l; [lra|nra]].
    Qed.
    Lemma s_step k : s (S k) - s k = S0 / INR M.
    Proof. assert (0 < INR M) by (apply lt_0_INR; lia). unfold s. rewrite S_INR. field. lra. Qed.
    Lemma stp_exp k : (k <= M)%nat -> expect n (stp k) (stv k).
    Proof.
      induction k as [|k IH]; intros L; cbn [stp stv]; [apply expect_const|]. specialize (IH ltac:(lia)).
      apply (expect_ext n (fun l => 1 * stp k l + h (s (S k)) * (1 * le (s (S k)) l + (- 1) * le (s k) l))); [intros l _; ring|].
      eapply expect_val; [|apply expect_lin; [exact IH|apply expect_lin; apply F_exp; apply s_in; lia]]. ring.
    Qed.
    Lemma stp_near k : (k <= M)%nat -> forall l, unit_draws n l -> (phi l <= s k -> Rabs (stp k l - h (phi l)) <= e) /\ (s k < phi l -> stp k l = 0).
    Proof.
      induction k as [|k IH]; intros L l Hl; cbn [stp].
      - split; [|reflexivity]. intros H. exfalso. specialize (P l Hl). unfold s in H. cbn [INR] in H. assert (0 * S0 / INR M = 0) by (unfold Rdiv; ring). lra.
      - specialize (IH ltac:(lia) l Hl) as [I1 I2]. pose proof (s_step k) as SS. assert (MP : 0 < INR M) by (apply lt_0_INR; lia). assert (SP : 0 < S0 / INR M) by (apply Rdiv_lt_0_compat; lra). unfold le. split; intros H.
        + destruct (Rle_dec (phi l) (s (S k))); [|lra]. destruct (Rle_dec (phi l) (s k)) as [C|C].
          * rewrite Rminus_eq_0, Rmult_0_r, Rplus_0_r. apply I1. exact C.
          * rewrite I2 by lra. replace (0 + h (s (S k)) * (1 - 0) - h (phi l)) with (h (s (S k)) - h (phi l)) by ring. pose proof (s_in (S k) L). specialize (P l Hl). apply near; [lra|lra|]. apply Rabs_le_between. lra.
        + destruct (Rle_dec (phi l) (s (S k))); [lra|]. destruct (Rle_dec (phi l) (s k)) as [C|C]; [lra|]. rewrite I2 by lra. ring.
    Qed.
    Lemma hf_ex a b : 0 <= a -> a <= b -> b <= S0 -> ex_RInt (fun x => h x * f x) a b.
    Proof. intros H1 H2 H3. apply (@ex_RInt_Chasles_2 R_CompleteNormedModule _ 0); [lra|]. apply (@ex_RInt_Chasles_1 R_CompleteNormedModule _ 0 b S0); [lra|]. exists I. exact HI. Qed.
    Lemma stv_near k : (k <= M)%nat -> exists A, iR (fun x => h x * f x) 0 (s k) A /\ Rabs (stv k - A) <= e * F (s k).
    Proof.
      induction k as [|k IH]; intros L; cbn [stv].
      - assert (E0 : s 0 = 0) by (unfold s; cbn; unfold Rdiv; ring). exists 0. rewrite E0. split; [exact (@is_RInt_point R_NormedModule (fun x => h x * f x) 0)|]. unfold F. rewrite RInt_point. change (Rabs (0 - 0) <= e * 0). rewrite Rminus_0_r, Rabs_R0. lra.
      - specialize (IH ltac:(lia)) as (A & HA & LA). pose proof (s_in k ltac:(lia)) as K1. pose proof (s_in (S k) L) as K2. pose proof (s_step k) as SS. assert (MP : 0 < INR M) by (apply lt_0_INR; lia). assert (SP : 0 < S0 / INR M) by (apply Rdiv_lt_0_compat; lra).
        destruct (hf_ex (s k) (s (S k))) as (A2 & HA2); try lra. exists (A + A2). split; [apply (iR_chasles _ _ (s k)); assumption|].
        assert (DF : iR f (s k) (s (S k)) (F (s (S k)) - F (s k))).
        { pose proof (@is_RInt_swap R_NormedModule f _ _ _ (F_int (s k) K1)) as Q. eapply iR_eq; [|exact (iR_chasles f (s k) 0 (s (S k)) _ _ Q (F_int _ K2))]. change (- F (s k) + F (s (S k)) = F (s (S k)) - F (s k)). ring. }
        set (dF := F (s (S k)) - F (s k)) in *. set (hs := h (s (S k))).
        assert (Q1 : iR (fun x => (hs - e) * f x) (s k) (s (S k)) ((hs - e) * dF)) by (apply (@is_RInt_scal R_NormedModule f); exact DF).
        assert (Q2 : iR (fun x => (hs + e) * f x) (s k) (s (S k)) ((hs + e) * dF)) by (apply (@is_RInt_scal R_NormedModule f); exact DF).
        assert (NN : forall x, s k < x < s (S k) -> (hs - e) * f x <= h x * f x <= (hs + e) * f x).
        { intros x Hx. assert (N1 : Rabs (h x - hs) <= e) by (apply near; [lra|lra|apply Rabs_le_between; lra]). apply Rabs_le_between in N1. pose proof (fpos x ltac:(lra)). split; apply Rmult_le_compat_r; lra. }
        assert (B1 : (hs - e) * dF <= A2) by (apply (is_RInt_le (fun x => (hs - e) * f x) (fun x => h x * f x) (s k) (s (S k))); [lra|exact Q1|exact HA2|intros x Hx; apply NN; exact Hx]).
        assert (B2 : A2 <= (hs + e) * dF) by (apply (is_RInt_le (fun x => h x * f x) (fun x => (hs + e) * f x) (s k) (s (S k))); [lra|exact HA2|exact Q2|intros x Hx; apply NN; exact Hx]).
        apply Rabs_le_between in LA. apply Rabs_le_between. unfold dF in *. nra.
    Qed.
  End Mesh.
  Lemma transfer : expect n (fun l => if Rle_dec (phi l) S0 then h (phi l) else 0) I.
  Proof.
    pose (del := fun k : nat => @Heine_cor2 h 0 S0 hc (mkposreal (/ INR (S k)) (Rinv_0_lt_compat _ (lt_0_INR (S k) (Nat.lt_0_succ k))))).
    pose (M := fun k => S (Z.to_nat (up (S0 / proj1_sig (del k))))).
    assert (NR : forall k x y, 0 <= x <= S0 -> 0 <= y <= S0 -> Rabs (x - y) <= S0 / INR (M k) -> Rabs (h x - h y) <= / INR (S k)).
    { intros k x y Hx Hy X. unfold M in X. destruct (del k) as (d & Hd). cbn [proj1_sig] in X. left. apply Hd; [exact Hx|exact Hy|]. apply Rle_lt_trans with (1 := X). pose proof (cond_pos d) as Pd.
      assert (U : S0 / d < INR (S (Z.to_nat (up (S0 / d))))). { rewrite S_INR, INR_IZR_INZ. pose proof (archimed (S0 / d)) as [A _]. assert (0 < S0 / d) by (apply Rdiv_lt_0_compat; lra). assert (0 < IZR (up (S0 / d))) by lra. apply lt_IZR in H0. rewrite Z2Nat.id by lia. lra. }
      assert (0 < S0 / d) by (apply Rdiv_lt_0_compat; lra). apply Rlt_div_l; [lra|]. apply Rlt_div_l in U; lra. }
    assert (EM : forall k, INR (M k) * S0 / INR (M k) = S0) by (intros k; field; apply not_0_INR; unfold M; lia).
    apply (expect_lim_val n (fun k => stp (M k) (M k)) (fun k => stv (M k) (M k)) _ I (F S0)).
    - intros k. apply (stp_exp (M k) (/ INR (S k)) ltac:(unfold M; lia) (NR k) (M k) (le_n _)).
    - intros k l Hl. destruct (stp_near (M k) (/ INR (S k)) ltac:(unfold M; lia) (NR k) (M k) (le_n _) l Hl) as [A B]. rewrite EM in A, B. destruct (Rle_dec (phi l) S0); [apply A; assumption|]. rewrite B by lra. rewrite Rminus_0_r, Rabs_R0. left. apply Rinv_0_lt_compat. apply lt_0_INR. lia.
    - intros k. destruct (stv_near (M k) (/ INR (S k)) ltac:(unfold M; lia) (NR k) (M k) (le_n _)) as (A & HA & B). rewrite EM in HA, B. assert (A = I) as -> by (rewrite <- (is_RInt_unique _ _ _ _ HA); apply (@is_RInt_unique R_CompleteNormedModule); exact HI). rewrite Rmult_comm. exact B.
  Qed.
End Transfer.
