(** * Tables at several incident energies: selection, unit-base interpolation *)
From Coquelicot Require Import Coquelicot.
From Verif Require Import Base NumR L_Search L_SearchR M_Interp M_PC S_PC L_PC L_PCR M_OutE S_OutE L_Legendre L_Angle.
From Coq Require Import ZifyBool ZifyNat.
Local Open Scope R_scope.

Lemma select_bracket energy E : increasing energy -> (2 <= sizeZ energy)%Z -> exists l f, select energy E = Ok (l, f) /\ bracket energy E l f /\ 0 <= f <= 1.
Proof.
  intros I Hn. unfold select. destruct (lower_boundR energy E I) as (k & Ek & K0 & K1 & K2). rewrite Ek. cbn [bind].
  destruct (k =? 0)%Z eqn:E0.
  { assert (k = 0)%Z as -> by lia. exists 0%Z, 0. split; [reflexivity|]. split; [|lra]. split; [lia|]. split; [lia|]. left. split; [apply K2; lia|auto]. }
  destruct (k =? sizeZ energy)%Z eqn:E1.
  { exists (sizeZ energy - 2)%Z, 1. split; [reflexivity|]. split; [|lra]. split; [lia|]. split; [lia|]. right; left. split; [apply K1; lia|auto]. }
  rewrite !atR by lia. cbn [bind]. replace (k - 1 + 1)%Z with k by lia.
  assert (getR energy (k - 1) < E) by (apply K1; lia). assert (E <= getR energy k) by (apply K2; lia).
  eexists (k - 1)%Z, _. split; [reflexivity|]. change (@nsub R NumR) with Rminus. change (@ndiv R NumR) with Rdiv. split.
  - split; [lia|]. split; [lia|]. right; right. replace (k - 1 + 1)%Z with k by lia. split; [lra|reflexivity].
  - assert (0 < getR energy k - getR energy (k - 1)) by lra. split.
    + apply Rmult_le_pos; [lra|left; apply Rinv_0_lt_compat; lra].
    + apply Rmult_le_reg_r with (getR energy k - getR energy (k - 1)); [lra|]. unfold Rdiv. rewrite Rmult_assoc, Rinv_l by lra. lra.
Qed.
(** the bracket of an energy on a strictly increasing grid is unique *)
Lemma bracket_unique energy E l f l' f' : increasing energy -> bracket energy E l f -> bracket energy E l' f' -> l = l' /\ f = f'.
Proof.
  intros I (A1 & A2 & A3) (B1 & B2 & B3).
  assert (M : forall i j, (0 <= i)%Z -> (i <= j)%Z -> (j < sizeZ energy)%Z -> getR energy i <= getR energy j) by (intros; apply I; lia).
  pose proof (M 0%Z l) as M1. pose proof (M (l + 1)%Z (sizeZ energy - 1)%Z) as M2. pose proof (M 0%Z l') as M3. pose proof (M (l' + 1)%Z (sizeZ energy - 1)%Z) as M4.
  pose proof (M (l + 1)%Z l') as M5. pose proof (M (l' + 1)%Z l) as M6. pose proof (M 0%Z (sizeZ energy - 1)%Z) as M7.
  specialize (M1 ltac:(lia) ltac:(lia) ltac:(lia)). specialize (M2 ltac:(lia) ltac:(lia) ltac:(lia)). specialize (M3 ltac:(lia) ltac:(lia) ltac:(lia)).
  specialize (M4 ltac:(lia) ltac:(lia) ltac:(lia)). specialize (M7 ltac:(lia) ltac:(lia) ltac:(lia)).
  destruct A3 as [(A & -> & ->)|[(A & -> & ->)|(A & ->)]], B3 as [(B & -> & ->)|[(B & -> & ->)|(B & ->)]]; try (exfalso; lra); auto.
  assert (l = l') as ->; [|auto]. destruct (Z.lt_trichotomy l l') as [Q|[Q|Q]]; [|exact Q|]; exfalso.
  - specialize (M5 ltac:(lia) ltac:(lia) ltac:(lia)). lra.
  - specialize (M6 ltac:(lia) ltac:(lia) ltac:(lia)). lra.
Qed.

Lemma unit_base_spec lo hi h a b : lo <= hi -> a < b -> a <= h <= b -> let x := @unit_base R NumR lo hi h a b in
  lo <= x <= hi /\ same_fraction x lo hi h a b /\ (lo = a -> hi = b -> x = h).
Proof.
  intros H1 H2 H3 x. unfold x, unit_base. change (@nadd R NumR) with Rplus. change (@nsub R NumR) with Rminus. change (@nmul R NumR) with Rmult. change (@ndiv R NumR) with Rdiv.
  set (q := (h - a) / (b - a)). assert (Q : q * (b - a) = h - a) by (unfold q; field; lra). assert (Q1 : 0 <= q <= 1) by nra. clearbody q.
  split; [nra|]. split; [unfold same_fraction; replace (h - a) with (q * (b - a)); ring|]. intros -> ->. lra.
Qed.
Lemma mix_le f a b c d : 0 <= f <= 1 -> a <= c -> b <= d -> mix f a b <= mix f c d.
Proof. unfold mix. intros. nra. Qed.

Lemma mix_lt f a b c d : 0 <= f <= 1 -> a < c -> b < d -> mix f a b < mix f c d.
Proof.
  unfold mix. intros F H1 H2. assert (0 <= f * (d - b)) by (apply Rmult_le_pos; lra). assert (0 <= (1 - f) * (c - a)) by (apply Rmult_le_pos; lra).
  destruct (Rle_lt_dec f (1/2)); [assert (0 < (1 - f) * (c - a)) by (apply Rmult_lt_0_compat; lra)|assert (0 < f * (d - b)) by (apply Rmult_lt_0_compat; lra)]; lra.
Qed.
Lemma valid_wide v p c i : valid_table v p c i -> first_of v < last_of v.
Proof.
  intros V. assert (H0 : first_of v <= last_of v).
  { destruct V. unfold first_of, last_of. apply vt_values; lia. }
  destruct (Req_dec (first_of v) (last_of v)) as [E|]; [|lra]. exfalso.
  assert (Hn : (1 <= sizeZ v)%Z) by (destruct V; assumption). assert (Hc : sizeZ c = sizeZ v) by (destruct V; unfold sizeZ; congruence).
  pose proof (integral_from_0 _ _ _ _ V (sizeZ v - 1)%Z ltac:(lia)) as H. pose proof (vt_last _ _ _ _ V) as L. rewrite Hc in L. rewrite L in H.
  unfold first_of, last_of in E. rewrite E in H. pose proof (@is_RInt_point R_NormedModule (dens v p c i) (getR v (sizeZ v - 1))) as P.
  apply (is_RInt_unique (V := R_CompleteNormedModule)) in H. apply (is_RInt_unique (V := R_CompleteNormedModule)) in P. rewrite H in P. change (1 = 0) in P. lra.
Qed.

(** sampling of a valid table stays in range *)
Lemma valid_sample t xi : valid_pc t -> 0 <= xi < 1 -> exists h, pc_sample t xi = Ok h /\ first_of (pc_values t) <= h <= last_of (pc_values t).
Proof.
  intros V X. destruct (sample_spec _ _ _ _ V xi X) as (h & k & S & _ & K1 & K2 & _ & K4). exists h.
  split; [destruct t; exact S|]. assert (I : increasing (pc_values t)) by (destruct V; assumption).
  assert (getR (pc_values t) 0 <= getR (pc_values t) k) by (apply I; lia). assert (getR (pc_values t) (k + 1) <= getR (pc_values t) (sizeZ (pc_values t) - 1)) by (apply I; lia).
  unfold first_of, last_of. lra.
Qed.
Lemma pc_min_R t : valid_pc t -> pc_min t = Ok (first_of (pc_values t)).
Proof. intros V. unfold pc_min. rewrite frontR_R; [reflexivity|destruct V; lia]. Qed.
Lemma pc_max_R t : valid_pc t -> pc_max t = Ok (last_of (pc_values t)).
Proof. intros V. unfold pc_max. rewrite backR_R; [reflexivity|destruct V; lia]. Qed.
Lemma valid_pdf_ok t x : valid_pc t -> exists p, pc_pdf t x = Ok p /\ 0 <= p.
Proof.
  intros V. exists (dens (pc_values t) (pc_pdfs t) (pc_cdf t) (pc_interp t) x). split; [destruct t; apply (dens_ok _ _ _ _ V)|]. apply (dens_nonneg _ _ _ _ V).
Qed.

Lemma atZ_In' {A} (v : list A) i a : atZ v i = Ok a -> In a v. Proof. apply atZ_In. Qed.

(** ** TabularEnergy *)
Lemma make_tabe_inv energy tables d : make_tabe energy tables = Ok d -> increasing energy /\ sizeZ tables = sizeZ energy /\ d = mkTabE energy tables.
Proof.
  unfold make_tabe. intros M. apply bind_ok in M as (? & G2 & M). apply guard_ok in G2. apply is_sorted_increasing in G2.
  apply bind_ok in M as (? & G1 & M). apply guard_ok in G1. apply Nat.eqb_eq in G1. injection M as <-. unfold sizeZ. rewrite G1. auto.
Qed.
Lemma limits_pc tables l f : (0 <= l)%Z -> (l + 1 < sizeZ tables)%Z -> (forall t, In t tables -> valid_pc t) -> exists t1 t2, atZ tables l = Ok t1 /\ atZ tables (l + 1) = Ok t2 /\
  limits pc_min pc_max tables l f = Ok (let a t := first_of (pc_values t) in let b t := last_of (pc_values t) in mkU t1 (a t1) (b t1) t2 (a t2) (b t2) (mix f (a t1) (a t2)) (mix f (b t1) (b t2))).
Proof.
  intros H1 H2 V. destruct (atZ_ok tables l) as [t1 E1]; [lia|]. destruct (atZ_ok tables (l + 1)) as [t2 E2]; [lia|]. exists t1, t2. split; [exact E1|]. split; [exact E2|].
  assert (V1 : valid_pc t1) by (apply V; eauto using atZ_In'). assert (V2 : valid_pc t2) by (apply V; eauto using atZ_In').
  unfold limits. rewrite E1. cbn [bind]. rewrite (pc_min_R t1 V1), (pc_max_R t1 V1). cbn [bind]. rewrite E2. cbn [bind]. rewrite (pc_min_R t2 V2), (pc_max_R t2 V2). cbn [bind].
  f_equal. unfold mix. f_equal; rnum; ring.
Qed.
Lemma te_sample_spec energy tables d E x1 x2 ds : make_tabe energy tables = Ok d -> (2 <= sizeZ energy)%Z -> (forall t, In t tables -> valid_pc t) ->
  0 <= x1 < 1 -> 0 <= x2 < 1 ->
  exists l f t1 t2 h e, bracket energy E l f /\ atZ tables l = Ok t1 /\ atZ tables (l + 1) = Ok t2 /\
    let t := if Rlt_dec f x1 then t1 else t2 in
    let lo := mix f (first_of (pc_values t1)) (first_of (pc_values t2)) in let hi := mix f (last_of (pc_values t1)) (last_of (pc_values t2)) in
    pc_sample t x2 = Ok h /\ te_sample d E (x1 :: x2 :: ds) = Ok (e, ds) /\ lo <= e <= hi /\
    same_fraction e lo hi h (first_of (pc_values t)) (last_of (pc_values t)).
Proof.
  intros M Hn V X1 X2. destruct (make_tabe_inv _ _ _ M) as (I & L & ->).
  destruct (select_bracket energy E I Hn) as (l & f & Es & B & F). destruct B as (B1 & B2 & B3).
  destruct (limits_pc tables l f ltac:(lia) ltac:(lia) V) as (t1 & t2 & E1 & E2 & El).
  assert (V1 : valid_pc t1) by (apply V; eauto using atZ_In'). assert (V2 : valid_pc t2) by (apply V; eauto using atZ_In').
  set (t := if Rlt_dec f x1 then t1 else t2). assert (Vt : valid_pc t) by (unfold t; destruct (Rlt_dec f x1); assumption).
  destruct (valid_sample t x2 Vt X2) as (h & Hh & Hr). pose proof (valid_wide _ _ _ _ V1) as W1. pose proof (valid_wide _ _ _ _ V2) as W2. pose proof (valid_wide _ _ _ _ Vt) as Wt.
  set (lo := mix f (first_of (pc_values t1)) (first_of (pc_values t2))). set (hi := mix f (last_of (pc_values t1)) (last_of (pc_values t2))).
  assert (Hlh : lo <= hi) by (apply mix_le; [exact F|lra|lra]).
  destruct (unit_base_spec lo hi h (first_of (pc_values t)) (last_of (pc_values t)) Hlh Wt Hr) as (R1 & R2 & _).
  exists l, f, t1, t2, h, (unit_base lo hi h (first_of (pc_values t)) (last_of (pc_values t))).
  split; [split; auto|]. split; [exact E1|]. split; [exact E2|]. cbv zeta. fold t lo hi. split; [exact Hh|]. split; [|split; assumption].
  unfold te_sample, rbind, rlift, rret, draw. cbn [te_in te_tables]. rewrite Es. cbn [bind]. rewrite El. cbn [bind]. cbv zeta. cbn [u_t1 u_t2 u_a1 u_a2 u_b1 u_b2 u_min u_max]. fold lo hi.
  change (@nltb R NumR) with Rltb. unfold t in *. destruct (Rlt_dec f x1) as [C|C].
  - rewrite (proj2 (Rltb_true f x1) C). rewrite Hh. reflexivity.
  - rewrite (proj2 (Rltb_false f x1)) by lra. rewrite Hh. reflexivity.
Qed.

(** ** the integral of the interpolated pdf *)
Lemma te_pdf_spec energy tables d E : make_tabe energy tables = Ok d -> (2 <= sizeZ energy)%Z -> (forall t, In t tables -> valid_pc t) ->
  exists l f t1 t2 (g : R -> R), bracket energy E l f /\ atZ tables l = Ok t1 /\ atZ tables (l + 1) = Ok t2 /\
    (forall x, te_pdf d E x = Ok (g x)) /\ (forall x, 0 <= g x) /\
    let lo := mix f (first_of (pc_values t1)) (first_of (pc_values t2)) in let hi := mix f (last_of (pc_values t1)) (last_of (pc_values t2)) in
    let w1 := last_of (pc_values t1) - first_of (pc_values t1) in let w2 := last_of (pc_values t2) - first_of (pc_values t2) in
    is_RInt g lo hi ((hi - lo) * mix f (/ w1) (/ w2)) /\ (forall x, x < lo \/ hi < x -> g x = 0).
Proof.
  intros M Hn V. destruct (make_tabe_inv _ _ _ M) as (I & L & ->).
  destruct (select_bracket energy E I Hn) as (l & f & Es & B & F). destruct B as (B1 & B2 & B3).
  destruct (limits_pc tables l f ltac:(lia) ltac:(lia) V) as (t1 & t2 & E1 & E2 & El).
  assert (V1 : valid_pc t1) by (apply V; eauto using atZ_In'). assert (V2 : valid_pc t2) by (apply V; eauto using atZ_In').
  pose proof (valid_wide _ _ _ _ V1) as W1. pose proof (valid_wide _ _ _ _ V2) as W2.
  set (a1 := first_of (pc_values t1)) in *. set (a2 := first_of (pc_values t2)) in *. set (b1 := last_of (pc_values t1)) in *. set (b2 := last_of (pc_values t2)) in *.
  set (lo := mix f a1 a2). set (hi := mix f b1 b2).
  assert (Hlh : lo < hi) by (apply mix_lt; [exact F|lra|lra]).
  set (D t := dens (pc_values t) (pc_pdfs t) (pc_cdf t) (pc_interp t)).
  set (T1 x := (x - lo) / (hi - lo) * (b1 - a1) + a1). set (T2 x := (x - lo) / (hi - lo) * (b2 - a2) + a2).
  exists l, f, t1, t2, (fun x => (1 - f) * D t1 (T1 x) + f * D t2 (T2 x)).
  split; [split; auto|]. split; [exact E1|]. split; [exact E2|]. split.
  { intros x. unfold te_pdf. cbn [te_in te_tables]. rewrite Es. cbn [bind]. rewrite El. cbn [bind]. cbv zeta. cbn [u_t1 u_t2 u_a1 u_a2 u_b1 u_b2 u_min u_max]. fold a1 a2 b1 b2 lo hi.
    change (@unit_base_inv R NumR lo hi x a1 b1) with (T1 x). change (@unit_base_inv R NumR lo hi x a2 b2) with (T2 x).
    assert (D1 : forall t y, valid_pc t -> pc_pdf t y = Ok (D t y)) by (intros t y Vt; unfold D; destruct t; apply (dens_ok _ _ _ _ Vt)).
    rewrite (D1 t1) by assumption. cbn [bind]. rewrite (D1 t2) by assumption. cbn [bind]. f_equal. rnum. ring. }
  split. { intros x. pose proof (dens_nonneg _ _ _ _ V1 (T1 x)). pose proof (dens_nonneg _ _ _ _ V2 (T2 x)). fold (D t1) in H. fold (D t2) in H0. nra. }
  cbv zeta. fold a1 a2 b1 b2 lo hi.
  assert (Q : forall t a b, valid_pc t -> a = first_of (pc_values t) -> b = last_of (pc_values t) -> a < b ->
    is_RInt (fun x => D t ((x - lo) / (hi - lo) * (b - a) + a)) lo hi ((hi - lo) / (b - a))).
  { intros t a b Vt Ha Hb Hab. set (u := (b - a) / (hi - lo)). assert (Hu : 0 < u) by (unfold u; apply Rdiv_lt_0_compat; lra).
    apply is_RInt_ext with (fun x => / u * (u * D t (u * x + (a - u * lo)))).
    { intros x _. change (@eq R (/ u * (u * D t (u * x + (a - u * lo)))) (D t ((x - lo) / (hi - lo) * (b - a) + a))).
      replace ((x - lo) / (hi - lo) * (b - a) + a) with (u * x + (a - u * lo)) by (unfold u; field; lra). field. lra. }
    eapply iR_val; [|apply iR_scal, (is_RInt_comp_lin (D t) u (a - u * lo) lo hi 1)].
    - unfold u. field. lra.
    - replace (u * lo + (a - u * lo)) with a by ring. replace (u * hi + (a - u * lo)) with b by (unfold u; field; lra).
      assert (Hn1 : (1 <= sizeZ (pc_values t))%Z) by (destruct Vt; assumption). assert (Hc : sizeZ (pc_cdf t) = sizeZ (pc_values t)) by (destruct Vt; unfold sizeZ; congruence).
      pose proof (integral_from_0 _ _ _ _ Vt (sizeZ (pc_values t) - 1)%Z ltac:(lia)) as H. pose proof (vt_last _ _ _ _ Vt) as La. rewrite Hc in La. rewrite La in H.
      rewrite Ha, Hb. exact H. }
  split.
  - eapply iR_val; [|apply iR_plus; apply iR_scal; [apply (Q t1 a1 b1 V1 eq_refl eq_refl W1)|apply (Q t2 a2 b2 V2 eq_refl eq_refl W2)]].
    unfold mix. field. lra.
  - intros x Hx.
    assert (K : forall t a b, valid_pc t -> a = first_of (pc_values t) -> b = last_of (pc_values t) -> a < b -> D t ((x - lo) / (hi - lo) * (b - a) + a) = 0).
    { intros t a b Vt Ha Hb Hab. unfold D. apply (dens_outside _ _ _ _ Vt). unfold first_of in Ha. unfold last_of in Hb. rewrite <- Ha, <- Hb.
      set (q := (x - lo) / (hi - lo)). assert (Hq : q * (hi - lo) = x - lo) by (unfold q; field; lra). clearbody q.
      destruct Hx; [left; assert (q < 0) by nra; nra|right; assert (1 < q) by nra; nra]. }
    unfold T1, T2. rewrite (K t1 a1 b1 V1 eq_refl eq_refl W1), (K t2 a2 b2 V2 eq_refl eq_refl W2). ring.
Qed.
