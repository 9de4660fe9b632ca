(** * Binary64: the packet of cross sections of a nuclide *)
From Coq Require Import Reals Lra Lia ZArith Bool List ZifyBool.
From Flocq Require Import Core IEEE754.BinarySingleNaN.
From Flocq Require Import IEEE754.PrimFloat.
From Coq Require Import Floats.
From Verif Require Import Base NumF S_PickF S_LinF M_Grid M_Packet M_Neutron L_Search L_OrderF L_PickF L_LinF L_XsF.
Import ListNotations.
Local Open Scope R_scope.
Local Notation rnd := (round radix2 (SpecFloat.fexp prec emax) (round_mode mode_NE)).

Lemma pow1000 : bpow radix2 1000 = 2 ^ 1000.
Proof. change 1000%Z with (Z.of_nat 1000). rewrite bpow_powerRZ. rewrite <- pow_powerRZ. reflexivity. Qed.
Lemma moderate_datum y : moderate y -> datum y.
Proof. intros [A B]. split; [exact A|]. rewrite <- bpow1023. rewrite <- pow1000 in B. pose proof (bpow_le radix2 1000 1023 ltac:(lia)). lra. Qed.
(** a value of modest size *)
Definition modest (v : float) : Prop := fin v /\ 0 <= BR v <= 2 * bpow radix2 1000.
Lemma modest_eval lm g x vals NB E i e1 e2 : built_on lm g x -> @make_grid _ (NumF lm) vals NB = Ok g \/ @make_grid_ace _ (NumF lm) vals NB = Ok g -> Forall fin vals -> (sizeZ vals < 2 ^ 64)%Z ->
  atZ vals i = Ok e1 -> atZ vals (i + 1) = Ok e2 -> fin E -> BR e1 <= BR E <= BR e2 -> BR e1 < BR e2 -> exists v, @xs_eval_i _ (NumF lm) x E i = Ok v /\ modest v.
Proof.
  intros B G Fv Sv A1 A2 FE H L.
  assert (V : g_vals g = vals).
  { destruct G as [G|G]; unfold make_grid, make_grid_ace in G; apply bind_ok in G as (? & _ & G); apply bind_ok in G as (f & _ & G); (destruct (_ : bool) in G; [discriminate|]); exact (hash_vals _ _ _ G). }
  assert (P1000 : 0 < bpow radix2 1000) by apply bpow_gt_0.
  assert (M : forall sig idx, good lm x vals sig idx -> Forall moderate sig -> exists v, @xs_eval_i _ (NumF lm) x E i = Ok v /\ modest v).
  { intros sig idx Gd Fs. destruct (eval_i_F lm x vals sig idx i e1 e2 E Gd Sv A1 A2 FE H L) as (v & Ev & V1 & V2 & V3 & V4). exists v. split; [exact Ev|]. split; [exact V1|]. split; [exact V2|].
    destruct (Z_lt_le_dec i idx) as [C|C]; [rewrite (V3 C), zero_V; lra|]. pose proof (gd_size _ _ _ _ _ Gd) as Sz. pose proof (atZ_inv _ _ _ A2) as [I2 _].
    destruct (atZ_ok sig (i - idx) ltac:(lia)) as [s1 S1]. destruct (atZ_ok sig (i + 1 - idx) ltac:(lia)) as [s2 S2]. destruct (V4 s1 s2 C S1 S2) as (_ & W & _). eapply Rle_trans; [exact W|].
    rewrite Forall_forall in Fs. destruct (Fs s1 (atZ_In _ _ _ S1)) as [_ M1]. destruct (Fs s2 (atZ_In _ _ _ S2)) as [_ M2]. rewrite <- pow1000 in M1, M2.
    assert (R : Rmax (BR s1) (BR s2) <= bpow radix2 1000) by (apply Rmax_lub; lra). assert (K : 0 < / 2 ^ 51 <= 1). { split; [apply Rinv_0_lt_compat, pow_lt; lra|]. rewrite <- Rinv_1. apply Rinv_le; [lra|]. apply pow_R1_Rle. lra. } nra. }
  assert (DT : forall sig, Forall moderate sig -> Forall datum sig) by (intros sig Q; eapply Forall_impl; [|exact Q]; exact moderate_datum).
  destruct B as [sig idx x I Mx Fs|sig idx x I I2 Mx Fs|y x Mx [Fy My]].
  - apply (M sig idx); [|exact Fs]. exact (good_of lm vals NB sig idx g x G Fv Sv I (or_introl Mx) (DT _ Fs)).
  - apply (M sig idx); [|exact Fs]. rewrite V in I. apply (good_of lm vals NB sig idx g x G Fv Sv ltac:(lia)); [right; split; [lia|exact Mx]|exact (DT _ Fs)].
  - unfold make_xs_single in Mx. destruct (_ : bool) eqn:C in Mx; [discriminate|]. injection Mx as <-. cbn [nltb NumF] in C. apply (ltb_BR_f y 0 Fy zero_fin) in C. rewrite zero_V in C. rewrite <- pow1000 in My.
    unfold xs_eval_i. cbn [x_single x_grid x_vals]. rewrite V. pose proof (atZ_inv _ _ _ A2) as [I2 _]. pose proof (atZ_inv _ _ _ A1) as [I1 _]. destruct (atZ_ok vals 0 ltac:(lia)) as [f Ef]. unfold frontR at 1. rewrite Ef. cbn [bind].
    destruct (nltb E f); [exists 0%float; split; [reflexivity|]; split; [reflexivity|rewrite zero_V; lra]|]. exists y. split; [reflexivity|]. split; [exact Fy|]. split; [exact C|]. lra.
Qed.
Lemma small_room : 16 * bpow radix2 1000 < bpow radix2 emax.
Proof. change 16 with (bpow radix2 4). rewrite <- bpow_plus. apply bpow_lt. reflexivity. Qed.
Lemma Gb k : (k <= 1010)%Z -> (0 <= k)%Z -> generic_format radix2 (SpecFloat.fexp prec emax) (bpow radix2 k).
Proof. intros H1 H2. rewrite fx_FLT. apply generic_format_bpow. unfold FLT_exp. lia. Qed.
Lemma b1 : 2 * bpow radix2 1000 = bpow radix2 1001. Proof. change 2 with (bpow radix2 1). now rewrite <- bpow_plus. Qed.
Lemma b2 : 4 * bpow radix2 1000 = bpow radix2 1002. Proof. change 4 with (bpow radix2 2). now rewrite <- bpow_plus. Qed.
Lemma add_modest a b : modest a -> modest b -> fin (a + b) /\ 0 <= BR (a + b) <= 4 * bpow radix2 1000.
Proof.
  intros [Fa Ba] [Fb Bb]. pose proof small_room. assert (P : 0 < bpow radix2 1000) by apply bpow_gt_0.
  assert (Q : 0 <= rnd (BR a + BR b) <= 4 * bpow radix2 1000).
  { split; [apply rnd_ge_G; [apply G0|lra]|]. rewrite b2. apply rnd_le_G; [apply Gb; lia|]. rewrite <- b2. lra. }
  destruct (add_BR a b Fa Fb) as [E1 E2]; [rewrite Rabs_pos_eq by apply Q; lra|]. split; [exact E2|]. rewrite E1. exact Q.
Qed.
Lemma sub_fin a b k : fin a -> fin b -> (0 <= k <= 1009)%Z -> Rabs (BR a) <= bpow radix2 k -> Rabs (BR b) <= bpow radix2 k -> fin (a - b) /\ Rabs (BR (a - b)) <= bpow radix2 (k + 1).
Proof.
  intros Fa Fb K Ha Hb. apply Rabs_le_inv in Ha. apply Rabs_le_inv in Hb. assert (D : 2 * bpow radix2 k = bpow radix2 (k + 1)) by (rewrite bpow_plus; cbn [bpow]; change (IZR (Z.pow_pos radix2 1)) with 2; lra).
  assert (Q : - bpow radix2 (k + 1) <= rnd (BR a - BR b) <= bpow radix2 (k + 1)).
  { split; [apply rnd_ge_G; [apply G_opp; apply Gb; lia|lra]|apply rnd_le_G; [apply Gb; lia|lra]]. }
  destruct (sub_BR a b Fa Fb) as [E1 E2]; [eapply Rle_lt_trans; [apply Rabs_le; exact Q|]; apply bpow_lt; change emax with 1024%Z; lia|].
  split; [exact E2|]. rewrite E1. apply Rabs_le. exact Q.
Qed.
Lemma packet_F lm (n : neutron float) vals NB E i e1 e2 p : let g := n_grid n in (@make_grid _ (NumF lm) vals NB = Ok g \/ @make_grid_ace _ (NumF lm) vals NB = Ok g) -> Forall fin vals -> (sizeZ vals < 2 ^ 64)%Z ->
  Forall (built_on lm g) [n_total n; n_elastic_xs n; n_fission_xs n; n_disappearance n] -> (forall r, @neutron_reaction _ n 102 = Ok r -> built_on lm g (rx_xs r)) ->
  atZ vals i = Ok e1 -> atZ vals (i + 1) = Ok e2 -> fin E -> BR e1 <= BR E <= BR e2 -> BR e1 < BR e2 -> @neutron_xs_i _ (NumF lm) n E i = Ok p ->
  nonnegative (total p) /\ nonnegative (elastic p) /\ nonnegative (inelastic p) /\ nonnegative (absorption p) /\ nonnegative (fission p) /\ nonnegative (capture p).
Proof.
  intros g G Fv Sv B BC A1 A2 FE H L EP. repeat (apply Forall_cons_iff in B as [? B]).
  assert (M : forall x, built_on lm g x -> exists v, @xs_eval_i _ (NumF lm) x E i = Ok v /\ modest v) by (intros x Bx; exact (modest_eval lm g x vals NB E i e1 e2 Bx G Fv Sv A1 A2 FE H L)).
  destruct (M (n_total n) ltac:(assumption)) as (t & Et & Mt). destruct (M (n_elastic_xs n) ltac:(assumption)) as (e & Ee & Me). destruct (M (n_fission_xs n) ltac:(assumption)) as (f & Ef & Mf). destruct (M (n_disappearance n) ltac:(assumption)) as (d & Ed & Md).
  unfold neutron_xs_i in EP. rewrite Et, Ee, Ef, Ed in EP. cbn [bind] in EP. apply bind_ok in EP as (hea & _ & EP). apply bind_ok in EP as (hb & _ & EP). apply bind_ok in EP as (cap & Ecap & EP). injection EP as <-.
  cbn [total elastic inelastic absorption fission capture].
  assert (NN : forall v, modest v -> nonnegative v) by (intros v [? ?]; split; [assumption|lra]). assert (P : 0 < bpow radix2 1000) by apply bpow_gt_0.
  destruct (add_modest d f Md Mf) as [Fa Ba].
  split; [apply NN; exact Mt|]. split; [apply NN; exact Me|]. split; [|split; [split; [exact Fa|apply Ba]|split; [apply NN; exact Mf|]]].
  - cbn [nltb nsub nadd nofZ NumF]. destruct Mt as [Ft Bt], Me as [Fe Be].
    destruct (sub_fin t e 1001 Ft Fe ltac:(lia)) as [F1 B1]; [rewrite Rabs_pos_eq, <- b1 by lra; lra|rewrite Rabs_pos_eq, <- b1 by lra; lra|]. change (1001 + 1)%Z with 1002%Z in B1.
    destruct (sub_fin (t - e)%float (d + f)%float 1002 F1 Fa ltac:(lia) B1) as [F2 B2]; [rewrite Rabs_pos_eq, <- b2 by lra; lra|].
    match goal with |- context [PrimFloat.ltb ?a ?b] => change b with 0%float; destruct (PrimFloat.ltb a 0) eqn:C end; [split; [reflexivity|change (0 <= BR 0); rewrite zero_V; lra]|]. split; [exact F2|]. apply (ltb_BR_f _ _ F2 zero_fin) in C. rewrite zero_V in C. exact C.
  - destruct hb; [|injection Ecap as <-; split; [reflexivity|change (0 <= BR 0); rewrite zero_V; lra]]. apply bind_ok in Ecap as (r & Er & Ecap). destruct (M (rx_xs r) (BC r Er)) as (c & Ec & Mc). assert (cap = c) as -> by congruence. apply NN. exact Mc.
Qed.
