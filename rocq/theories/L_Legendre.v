(** * Legendre series *)
From Coquelicot Require Import Coquelicot.
From Verif Require Import Base NumR M_Legendre S_Legendre L_Interp2.
From Coq Require Import ZifyBool ZifyNat.
Local Open Scope R_scope.

Lemma Ok_eq {A} (x y : A) : Ok x = Ok y -> x = y.
Proof. intros E. inversion E. reflexivity. Qed.
Lemma P2_snd n x : snd (P2 n x) = P (S n) x.
Proof. unfold P. cbn [P2]. destruct (P2 n x). reflexivity. Qed.
Lemma P_0 x : P 0 x = 1. Proof. reflexivity. Qed.
Lemma P_1 x : P 1 x = x. Proof. reflexivity. Qed.
Lemma P_SS n x : P (S (S n)) x = ((2 * INR n + 3) * x * P (S n) x - (INR n + 1) * P n x) / (INR n + 2).
Proof. unfold P. cbn [P2]. destruct (P2 n x) as [p q]. reflexivity. Qed.
Lemma INR_pos2 n : 0 < INR n + 2. Proof. pose proof (pos_INR n). lra. Qed.
Lemma P_bonnet n x : (INR n + 2) * P (S (S n)) x = (2 * INR n + 3) * x * P (S n) x - (INR n + 1) * P n x.
Proof. rewrite P_SS. field. pose proof (INR_pos2 n). lra. Qed.

Lemma P_2 x : P 2 x = 1 / 2 * (3 * x * x - 1). Proof. rewrite P_SS, P_1, P_0. cbn [INR]. field. Qed.
Lemma P_3 x : P 3 x = 1 / 2 * (5 * x * x * x - 3 * x). Proof. rewrite P_SS, P_2, P_1. cbn [INR]. field. Qed.
Lemma P_4 x : P 4 x = 1 / 8 * (35 * (x * x) * (x * x) - 30 * (x * x) + 3). Proof. rewrite P_SS, P_3, P_2. cbn [INR]. field. Qed.

Lemma leg_loop_P n : forall l x, @leg_loop R NumR n (Z.of_nat (S l)) x (P l x) (P (S l) x) = P (S l + n) x.
Proof.
  induction n as [|n IH]; intros l x; [rewrite Nat.add_0_r; reflexivity|]. cbn [leg_loop].
  replace (Z.of_nat (S l) + 1)%Z with (Z.of_nat (S (S l))) by lia. replace (S l + S n)%nat with (S (S l) + n)%nat by lia. rewrite <- IH. f_equal.
  rnum. rewrite <- INR_IZR_INZ, S_INR, P_SS. f_equal; ring.
Qed.
Lemma legendre_P n x : @legendre R NumR n x = P n x.
Proof.
  destruct n as [|[|[|[|[|n]]]]].
  - reflexivity. - reflexivity.
  - rewrite P_2. cbn [legendre]. rnum. reflexivity.
  - rewrite P_3. cbn [legendre]. rnum. reflexivity.
  - rewrite P_4. cbn [legendre]. rnum. reflexivity.
  - unfold legendre. replace (S (S (S (S (S n)))) - 4)%nat with (S n) by lia. change 4%Z with (Z.of_nat 4).
    transitivity (@leg_loop R NumR (S n) (Z.of_nat 4) x (P 3 x) (P 4 x)).
    + f_equal; [rewrite P_3|rewrite P_4]; rnum; field.
    + rewrite leg_loop_P. reflexivity.
Qed.

Lemma leg_sum_series a : forall l mu acc c0, (forall k, nth k a 0 = (2 * INR (l + k) + 1) / 2 * nth k c0 0) -> length a = length c0 ->
  @leg_sum R NumR a l mu acc = acc + series l c0 mu.
Proof.
  induction a as [|c a IH]; intros l mu acc [|d c0] H L; try discriminate; cbn [leg_sum series]; [rnum; ring|].
  rewrite (IH (S l) mu _ c0).
  - rewrite legendre_P. pose proof (H 0%nat) as H0. cbn [nth] in H0. rewrite Nat.add_0_r in H0. rnum. rewrite H0. ring.
  - intros k. specialize (H (S k)). cbn [nth] in H. replace (l + S k)%nat with (S l + k)%nat in H by lia. exact H.
  - cbn in L. lia.
Qed.
Lemma scale_nth a : forall l k, nth k (@scale_moments R NumR (Z.of_nat l) a) 0 = (2 * INR (l + k) + 1) / 2 * nth k a 0.
Proof.
  induction a as [|c a IH]; intros l k; cbn [scale_moments]; [destruct k; cbn [nth]; ring|].
  destruct k as [|k]; cbn [nth].
  - rnum. rewrite Nat.add_0_r, <- INR_IZR_INZ. field.
  - replace (Z.of_nat l + 1)%Z with (Z.of_nat (S l)) by lia. rewrite IH. replace (l + S k)%nat with (S l + k)%nat by lia. reflexivity.
Qed.
Lemma scale_length a : forall l, length (@scale_moments R NumR l a) = length a.
Proof. induction a; intros; cbn; auto. Qed.

(** the density of the series built from the moments [a] *)
Lemma make_leg_pdf a d : make_leg a = Ok d -> forall mu, @leg_pdf R NumR (lg_a d) mu = series 0 (1 :: a) mu.
Proof.
  unfold make_leg. destruct (positive _); [|discriminate]. intros H. apply Ok_eq in H. subst d. intros mu. cbn [lg_a]. unfold leg_pdf.
  rewrite (leg_sum_series _ 0 mu _ (1 :: a)); [rnum; ring| |rewrite scale_length; reflexivity].
  intros k. change 0%Z with (Z.of_nat 0). apply scale_nth.
Qed.
Lemma default_leg_pdf d : make_leg0 = Ok d -> forall mu, @leg_pdf R NumR (lg_a d) mu = 1 / 2.
Proof.
  unfold make_leg0. destruct (positive _); [|discriminate]. intros H. apply Ok_eq in H. subst d. intros mu. cbn [lg_a leg_pdf]. unfold leg_pdf. cbn [leg_sum legendre]. rnum. ring.
Qed.

(** ** integral *)
Lemma dR_mult (f g : R -> R) (x a b : R) : is_derive f x a -> is_derive g x b -> is_derive (fun t => f t * g t) x (a * g x + f x * b).
Proof. intros H1 H2. apply (is_derive_mult f g x a b H1 H2). intros; apply Rmult_comm. Qed.
Lemma dR_scal (f : R -> R) (k x a : R) : is_derive f x a -> is_derive (fun t => k * f t) x (k * a).
Proof. intros H. apply (is_derive_scal f x k a H). Qed.
Lemma dR_minus (f g : R -> R) (x a b : R) : is_derive f x a -> is_derive g x b -> is_derive (fun t => f t - g t) x (a - b).
Proof. intros H1 H2. apply (is_derive_minus f g x a b H1 H2). Qed.
Lemma dR_ext (f g : R -> R) (x a : R) : (forall t, f t = g t) -> is_derive f x a -> is_derive g x a.
Proof. intros H. apply is_derive_ext. exact H. Qed.
Lemma dR_id (x : R) : is_derive (fun t : R => t) x 1.
Proof. exact (is_derive_id (K := R_AbsRing) x). Qed.
Lemma P_derive n : exists d1 d2 : R -> R, (forall x, is_derive (P n) x (d1 x)) /\ (forall x, is_derive (P (S n)) x (d2 x)) /\
  (forall x, d2 x = x * d1 x + INR (S n) * P n x) /\ (forall x, x * d2 x - d1 x = INR (S n) * P (S n) x).
Proof.
  induction n as [|n (d1 & d2 & D1 & D2 & B & C)].
  - exists (fun _ => 0), (fun _ => 1). split; [intros x; apply (is_derive_ext (fun _ : R => 1)); [reflexivity|exact (is_derive_const (K := R_AbsRing) (V := R_NormedModule) 1 x)]|]. split; [intros x; apply (is_derive_ext (fun t : R => t)); [reflexivity|exact (is_derive_id (K := R_AbsRing) x)]|]. split; intros x; rewrite ?P_0, ?P_1; cbn [INR]; ring.
  - set (d3 := fun x => ((2 * INR n + 3) * (P (S n) x + x * d2 x) - (INR n + 1) * d1 x) / (INR n + 2)).
    pose proof (INR_pos2 n) as Hp. assert (En : INR (S n) = INR n + 1) by apply S_INR. assert (En2 : INR (S (S n)) = INR n + 2) by (rewrite !S_INR; ring).
    exists d2, d3. split; [exact D2|]. split.
    + intros x. apply (dR_ext (fun x => ((2 * INR n + 3) * x * P (S n) x - (INR n + 1) * P n x) / (INR n + 2))); [intros; symmetry; apply P_SS|].
      apply (dR_ext (fun x0 => / (INR n + 2) * ((2 * INR n + 3) * (x0 * P (S n) x0) - (INR n + 1) * P n x0))); [intros t; cbv beta; field; lra|].
      replace (d3 x) with (/ (INR n + 2) * ((2 * INR n + 3) * (1 * P (S n) x + x * d2 x) - (INR n + 1) * d1 x)) by (unfold d3; field; lra).
      apply dR_scal, dR_minus; apply dR_scal; [apply (dR_mult (fun t => t)); [apply dR_id|apply D2]|apply D1].
    + assert (Bx : forall x, d3 x = x * d2 x + INR (S (S n)) * P (S n) x).
      { intros x. unfold d3. specialize (C x). rewrite En in C. rewrite En2.
        apply Rmult_eq_reg_r with (INR n + 2); [|lra]. replace (((2 * INR n + 3) * (P (S n) x + x * d2 x) - (INR n + 1) * d1 x) / (INR n + 2) * (INR n + 2)) with ((2 * INR n + 3) * (P (S n) x + x * d2 x) - (INR n + 1) * d1 x) by (field; lra).
        replace (d1 x) with (x * d2 x - (INR n + 1) * P (S n) x) by lra. ring. }
      split; [exact Bx|]. intros x. rewrite Bx, En2. specialize (B x). specialize (C x). rewrite En in B, C.
      pose proof (P_bonnet n x) as Q.
      (* x (x d2 + (n+2) P_{n+1}) - d2 = (n+2) P_{n+2} *)
      rewrite Q. assert (E : (1 - x * x) * d2 x = (INR n + 1) * (P n x - x * P (S n) x)) by (replace ((1 - x * x) * d2 x) with (d2 x - x * (x * d2 x - d1 x) - x * d1 x) by ring; rewrite C, B; ring).
      replace (x * (x * d2 x + (INR n + 2) * P (S n) x) - d2 x) with ((INR n + 2) * x * P (S n) x - (1 - x * x) * d2 x) by ring. rewrite E. ring.
Qed.
Lemma P_at_1 n : P n 1 = 1 /\ P (S n) 1 = 1.
Proof.
  induction n as [|n [H1 H2]]; [rewrite P_0, P_1; split; reflexivity|]. split; [exact H2|]. rewrite P_SS, H1, H2. pose proof (INR_pos2 n). field. lra.
Qed.
Lemma P_at_m1 n : P n (-1) = (-1) ^ n /\ P (S n) (-1) = (-1) ^ (S n).
Proof.
  induction n as [|n [H1 H2]]; [rewrite P_0, P_1; cbn; split; ring|]. split; [exact H2|]. rewrite P_SS, H1, H2. pose proof (INR_pos2 n). cbn [pow]. field. lra.
Qed.
Lemma P_integral n : is_RInt (P (S n)) (-1) 1 0.
Proof.
  destruct (P_derive n) as (d1 & d2 & D1 & D2 & B & C). destruct (P_derive (S n)) as (d2' & d3 & D2' & D3 & B' & C').
  assert (E' : forall x, d2' x = d2 x) by (intros x; transitivity (Derive (P (S n)) x); [symmetry; apply is_derive_unique, D2'|apply is_derive_unique, D2]).
  pose proof (INR_pos2 n) as Hp. assert (En : INR (S n) = INR n + 1) by apply S_INR. assert (En2 : INR (S (S n)) = INR n + 2) by (rewrite !S_INR; ring). pose proof (pos_INR n) as Hn.
  apply derive_RInt with (F := fun x => (P (S (S n)) x - P n x) / (2 * INR n + 3)).
  - intros x _. apply (dR_ext (fun x0 => / (2 * INR n + 3) * (P (S (S n)) x0 - P n x0))); [intros t; cbv beta; field; lra|].
    replace (P (S n) x) with (/ (2 * INR n + 3) * (d3 x - d1 x)); [apply dR_scal, dR_minus; [apply D3|apply D1]|].
    rewrite B', E'. specialize (C x). rewrite En in C. rewrite En2.
    replace (d1 x) with (x * d2 x - (INR n + 1) * P (S n) x) by lra. field. lra.
  - intros x _. eapply cont_of_derive, D2.
  - destruct (P_at_1 n) as [A1 A2]. destruct (P_at_1 (S n)) as [_ A3]. destruct (P_at_m1 n) as [M1 M2]. destruct (P_at_m1 (S n)) as [_ M3].
    rewrite A1, A3, M1, M3. cbn [pow]. field. lra.
Qed.
Lemma iR_const (a b c : R) : is_RInt (fun _ : R => c) a b ((b - a) * c).
Proof. exact (is_RInt_const a b c). Qed.
Lemma iR_plus (f g : R -> R) (a b u v : R) : is_RInt f a b u -> is_RInt g a b v -> is_RInt (fun x => f x + g x) a b (u + v).
Proof. intros H1 H2. exact (is_RInt_plus f g a b u v H1 H2). Qed.
Lemma iR_scal (f : R -> R) (a b k u : R) : is_RInt f a b u -> is_RInt (fun x => k * f x) a b (k * u).
Proof. intros H. exact (is_RInt_scal f a b k u H). Qed.
Lemma iR_val (f : R -> R) (a b u v : R) : u = v -> is_RInt f a b u -> is_RInt f a b v.
Proof. intros ->. trivial. Qed.
Lemma series_integral a : forall l, is_RInt (series (S l) a) (-1) 1 0.
Proof.
  induction a as [|c a IH]; intros l; cbn [series].
  - eapply iR_val; [|apply iR_const]. ring.
  - eapply iR_val; [|apply (iR_plus (fun mu => (2 * INR (S l) + 1) / 2 * c * P (S l) mu) (series (S (S l)) a)); [apply iR_scal, P_integral|apply IH]]. ring.
Qed.
Lemma series_normalised a : is_RInt (series 0 (1 :: a)) (-1) 1 1.
Proof.
  cbn [series]. eapply iR_val; [|apply (iR_plus (fun mu => (2 * INR 0 + 1) / 2 * 1 * P 0 mu) (series 1 a)); [|apply series_integral];
  apply is_RInt_ext with (fun _ => 1/2); [intros x _; rewrite P_0; cbn [INR]; change (@eq R (1/2) ((2 * 0 + 1) / 2 * 1 * 1)); field|apply iR_const]]. field.
Qed.

(** ** positivity scan *)
Lemma positive_scan_spec n a : forall mu, @positive_scan R NumR n a mu = true <-> forall k, (k <= n)%nat -> 0 <= leg_pdf a (mu + INR k / 1000).
Proof.
  induction n as [|n IH]; intros mu; cbn [positive_scan]; change (@nofZ R NumR 0) with 0; change (@nltb R NumR) with Rltb.
  - destruct (Rltb_spec (leg_pdf a mu) 0) as [C|C]; split; intros H; try easy.
    + specialize (H 0%nat (le_n 0)). cbn [INR] in H. replace (mu + 0 / 1000) with mu in H by field. lra.
    + intros k Hk. assert (k = 0)%nat as -> by lia. cbn [INR]. replace (mu + 0 / 1000) with mu by field. exact C.
  - destruct (Rltb_spec (leg_pdf a mu) 0) as [C|C].
    + split; [discriminate|]. intros H. specialize (H 0%nat ltac:(lia)). cbn [INR] in H. replace (mu + 0 / 1000) with mu in H by field. lra.
    + rewrite IH. change (@nadd R NumR) with Rplus. change (@nlit R NumR 1 1000) with (1 / 1000). split; intros H k Hk.
      * destruct k as [|k]; [cbn [INR]; replace (mu + 0 / 1000) with mu by field; exact C|].
        specialize (H k ltac:(lia)). rewrite S_INR. replace (mu + (INR k + 1) / 1000) with (mu + 1 / 1000 + INR k / 1000) by field. exact H.
      * specialize (H (S k) ltac:(lia)). rewrite S_INR in H. replace (mu + 1 / 1000 + INR k / 1000) with (mu + (INR k + 1) / 1000) by field. exact H.
Qed.
Lemma max_scan_spec n a : forall mu m, let M := @max_scan R NumR n a mu m in
  m <= M /\ forall k, (1 <= k <= n)%nat -> leg_pdf a (mu + INR k / 1000) <= M.
Proof.
  induction n as [|n IH]; intros mu m; cbn [max_scan]; [split; [lra|intros; lia]|]. cbv zeta.
  change (@nltb R NumR) with Rltb. change (@nadd R NumR) with Rplus. change (@nlit R NumR 1 1000) with (1 / 1000).
  destruct (IH (mu + 1 / 1000) (if Rltb m (leg_pdf a (mu + 1 / 1000)) then leg_pdf a (mu + 1 / 1000) else m)) as [I1 I2].
  set (M := max_scan _ _ _ _) in *.
  assert (m <= M /\ leg_pdf a (mu + 1 / 1000) <= M) as [J1 J2] by (destruct (Rltb_spec m (leg_pdf a (mu + 1 / 1000))); lra).
  split; [exact J1|]. intros k Hk. destruct k as [|[|k]]; [lia|cbn [INR]; exact J2|].
  specialize (I2 (S k) ltac:(lia)). rewrite S_INR. replace (mu + (INR (S k) + 1) / 1000) with (mu + 1 / 1000 + INR (S k) / 1000) by field. exact I2.
Qed.

Lemma leg_sample_range d : forall ds mu ds', (forall x, In x ds -> 0 <= x < 1) -> leg_sample d ds = Ok (mu, ds') -> -1 <= mu < 1.
Proof.
  intros ds. induction ds as [ds IH] using (well_founded_induction (Wf_nat.well_founded_ltof _ (@length R))). unfold Wf_nat.ltof in IH.
  intros mu ds' H. destruct ds as [|x1 [|x2 t]]; cbn [leg_sample]; try discriminate.
  change (@nltb R NumR) with Rltb. destruct (Rltb_spec x2 (ndiv (leg_pdf (lg_a d) (nsub (nmul (nofZ 2) x1) (nofZ 1))) (lg_max d))).
  - intros E. injection E as <- <-. rnum. specialize (H x1 (or_introl eq_refl)). lra.
  - apply IH; [cbn; lia|]. intros x Hx. apply H. right; right; exact Hx.
Qed.

(** a rejected moment stays in the object *)
Lemma set_moment_refuted d : lg_a d = [1 / 2] -> exists d', @set_moment R NumR d 1 2 = (d', true) /\ lg_a d' = [1 / 2; 3].
Proof.
  intros H. eexists. unfold set_moment. rewrite H. cbn [length Nat.leb app repeat upd_nat Nat.sub Nat.add].
  set (a := [1 / 2; _]). replace (positive a) with false.
  - split; [reflexivity|]. cbn [lg_a]. unfold a. f_equal. f_equal. rnum. change (Z.of_nat 1) with 1%Z. field.
  - symmetry. unfold positive. generalize steps. intros n. destruct (positive_scan n a (-~ #1)%num) eqn:E; [|reflexivity]. exfalso.
    rewrite positive_scan_spec in E. specialize (E 0%nat ltac:(lia)). revert E. unfold leg_pdf, a. cbn [leg_sum legendre INR]. rnum. change (Z.of_nat 1) with 1%Z. lra.
Qed.
(** what a throwing set_moment does to the object, in general *)
Lemma set_moment_effect (d : legd R) l v : l <> 0%nat -> let d' := fst (set_moment d l v) in
  nth l (lg_a d') 0 = v * (2 * INR l + 1) / 2 /\ (forall k, k <> l -> nth k (lg_a d') 0 = nth k (lg_a d) 0).
Proof.
  intros Hl. destruct l as [|l]; [congruence|]. cbn [set_moment fst lg_a]. set (L := S l).
  set (a := if Nat.leb (length (lg_a d)) L then _ else _).
  assert (Ha : (L < length a)%nat). { unfold a. destruct (Nat.leb_spec (length (lg_a d)) L); [rewrite app_length, repeat_length; lia|lia]. }
  assert (Hk : forall k, nth k a 0 = nth k (lg_a d) 0).
  { intros k. unfold a. destruct (Nat.leb_spec (length (lg_a d)) L); [|reflexivity].
    destruct (Nat.lt_ge_cases k (length (lg_a d))); [apply app_nth1; assumption|]. rewrite app_nth2, (nth_overflow (lg_a d)) by lia.
    change (@nofZ R NumR 0) with 0. apply nth_repeat. }
  clearbody a. assert (U : forall (b : R) (w : list R) j k, (j < length w)%nat -> nth k (upd_nat w j b) 0 = if Nat.eqb k j then b else nth k w 0).
  { intros b w. induction w as [|h t IH]; intros [|j] [|k] Hj; cbn in *; try lia; try reflexivity. apply IH. lia. }
  split.
  - rewrite U by assumption. rewrite Nat.eqb_refl. rnum. rewrite <- INR_IZR_INZ. reflexivity.
  - intros k Hkl. rewrite U by assumption. apply Nat.eqb_neq in Hkl. rewrite Hkl. apply Hk.
Qed.

Lemma steps_Z : Z.of_nat steps = 2000%Z. Proof. reflexivity. Qed.
#[global] Opaque steps.
Lemma make_leg_iff (a : list R) : (exists d, make_leg a = Ok d) <-> forall k, (Z.of_nat k <= 2000)%Z -> 0 <= series 0 (1 :: a) (-1 + INR k / 1000).
Proof.
  set (sa := @scale_moments R NumR 0%Z (1 :: a)).
  assert (P : forall mu, @leg_pdf R NumR sa mu = series 0 (1 :: a) mu).
  { intros mu. unfold leg_pdf, sa. rewrite (leg_sum_series _ 0 mu _ (1 :: a)); [rnum; ring| |rewrite scale_length; reflexivity].
    intros k. change 0%Z with (Z.of_nat 0). apply scale_nth. }
  assert (Q : @positive R NumR sa = true <-> forall k, (Z.of_nat k <= 2000)%Z -> 0 <= series 0 (1 :: a) (-1 + INR k / 1000)).
  { unfold positive. rewrite positive_scan_spec. change ((-~ #1)%num : R) with (- (1)).
    split; intros H k Hk; [rewrite <- P|rewrite P]; apply H; pose proof steps_Z; lia. }
  rewrite <- Q. unfold make_leg. change (@nofZ R NumR 1) with 1. fold sa. split.
  - intros [d H]. destruct (positive sa); [reflexivity|discriminate].
  - intros ->. eauto.
Qed.
Lemma set_moment_rejects (d : legd R) l v d' b : l <> 0%nat -> set_moment d l v = (d', b) ->
  (b = true <-> exists k, (Z.of_nat k <= 2000)%Z /\ leg_pdf (lg_a d') (-1 + INR k / 1000) < 0).
Proof.
  intros Hl E. destruct l as [|l]; [congruence|]. cbn [set_moment] in E. set (a := upd_nat _ _ _) in E. injection E as <- <-. cbn [lg_a].
  pose proof (positive_scan_spec steps a (- (1))) as Q. change (positive a) with (positive_scan steps a (- (1))). pose proof steps_Z as Z0.
  destruct (positive_scan steps a (- (1))); cbn [negb]; split; try discriminate.
  - intros (k & Hk & C). exfalso. destruct Q as [Q _]. specialize (Q eq_refl k ltac:(lia)). replace (-1) with (- (1)) in C by reflexivity. lra.
  - intros _. destruct Q as [_ Q].
    assert (D : forall n, (forall k, (k <= n)%nat -> 0 <= leg_pdf a (- (1) + INR k / 1000)) \/ exists k, (k <= n)%nat /\ leg_pdf a (- (1) + INR k / 1000) < 0).
    { induction n as [|n IH].
      - destruct (Rlt_dec (leg_pdf a (- (1) + INR 0 / 1000)) 0) as [C|C]; [right; exists 0%nat; split; [lia|exact C]|left]. intros k Hk. replace k with 0%nat by lia. lra.
      - destruct IH as [IH|(k & Hk & C)]; [|right; exists k; split; [lia|exact C]].
        destruct (Rlt_dec (leg_pdf a (- (1) + INR (S n) / 1000)) 0) as [C|C]; [right; exists (S n); split; [lia|exact C]|left].
        intros k Hk. destruct (Nat.eq_dec k (S n)) as [->|]; [lra|apply IH; lia]. }
    destruct (D steps) as [D0|(k & Hk & C)]; [specialize (Q D0); discriminate|]. exists k. split; [lia|exact C].
  - reflexivity.
Qed.
Lemma leg_example : exists d : legd R, make_leg [1/4] = Ok d.
Proof.
  apply make_leg_iff. intros k Hk. cbn [series]. rewrite P_0, P_1. cbn [INR].
  assert (0 <= INR k / 1000 <= 2). { pose proof (pos_INR k). apply IZR_le in Hk. rewrite <- INR_IZR_INZ in Hk. split; [apply Rmult_le_pos; lra|lra]. }
  lra.
Qed.
Lemma leg0_example : exists d : legd R, make_leg0 = Ok d /\ lg_a d = [1 / 2].
Proof.
  unfold make_leg0. change (@nlit R NumR 1 2) with (1 / 2). replace (positive [1 / 2]) with true; [eexists; split; reflexivity|].
  symmetry. apply positive_scan_spec. intros k _. unfold leg_pdf. cbn [leg_sum legendre]. rnum. lra.
Qed.
Lemma set_moment_0 (d : legd R) v : set_moment d 0 v = (d, true). Proof. reflexivity. Qed.
