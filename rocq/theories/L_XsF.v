(** * Binary64: cross section evaluation *)
From Coq Require Import Reals Lra Lia ZArith Bool List ZifyBool.
From Flocq Require Import Core IEEE754.BinarySingleNaN.
From Flocq Require Import IEEE754.PrimFloat.
From Coq Require Import Floats.
From Verif Require Import Base NumF S_PickF S_LinF M_Interp M_Grid L_Search L_OrderF L_PickF L_LinF.
Import ListNotations.
Local Open Scope R_scope.

Lemma fin_notNaN x : fin x -> notNaN x.
Proof. unfold fin, notNaN. rewrite <- B2SF_Prim2B. destruct (Prim2B x); cbn; intros; discriminate. Qed.
Lemma ltb_BR x y : fin x -> fin y -> PrimFloat.ltb x y = true <-> BR x < BR y.
Proof. intros Fx Fy. rewrite ltb_equiv, Bltb_correct by assumption. unfold BR. case Rlt_bool_spec; intros; split; intros; try easy; lra. Qed.
Lemma ltb_BR_f x y : fin x -> fin y -> PrimFloat.ltb x y = false <-> BR y <= BR x.
Proof. intros Fx Fy. rewrite ltb_equiv, Bltb_correct by assumption. unfold BR. case Rlt_bool_spec; intros; split; intros; try easy; lra. Qed.
Lemma between_fin E a b : notNaN E -> fin a -> fin b -> PrimFloat.ltb E a = false -> PrimFloat.ltb E b = true -> fin E.
Proof.
  unfold notNaN, fin. rewrite <- B2SF_Prim2B. intros N Fa Fb. rewrite !ltb_equiv. destruct (Prim2B E) as [s|[|]| |s m e Bd]; cbn in *; try reflexivity; try congruence;
  destruct (Prim2B a) as [?|?| |sa ? ? ?], (Prim2B b) as [?|?| |sb ? ? ?]; try discriminate Fa; try discriminate Fb; cbn; try destruct sa; try destruct sb; cbn; congruence.
Qed.
Lemma rounded_of m v s : 0 <= m -> Rabs (v - s) <= 9 * bpow radix2 (-53) * m + bpow radix2 (-1075) -> rounded m v s.
Proof.
  intros M H. unfold rounded. eapply Rle_trans; [exact H|]. apply Rplus_le_compat.
  - change (bpow radix2 (-53)) with (/ IZR (2 ^ 53)). unfold Rdiv. rewrite (pow_IZR 2 49). change (2 ^ Z.of_nat 49)%Z with (2 ^ 49)%Z. replace (/ IZR (2 ^ 49)) with (16 * / IZR (2 ^ 53)); [|change (2 ^ 53)%Z with (16 * 2 ^ 49)%Z; rewrite mult_IZR; field; apply not_0_IZR; discriminate].
    assert (0 < / IZR (2 ^ 53)) by (apply Rinv_0_lt_compat, IZR_lt; reflexivity). nra.
  - apply Rle_trans with (bpow radix2 (-1074)); [apply bpow_le; lia|]. right. change (-1074)%Z with (- (1074))%Z. rewrite (bpow_opp radix2 1074). f_equal. change 1074%Z with (Z.of_nat 1074). rewrite bpow_powerRZ. rewrite <- pow_powerRZ. reflexivity.
Qed.
Lemma bpow1023 : bpow radix2 1023 = 2 ^ 1023.
Proof. change 1023%Z with (Z.of_nat 1023). rewrite bpow_powerRZ. rewrite <- pow_powerRZ. reflexivity. Qed.

(** ** the evaluation *)
Section Local.
  Context {T : Type} {N : Num T}.
  Local Open Scope Z_scope.
  Lemma search_local (v : list T) x : forall fuel first len, (Z.to_nat len < fuel)%nat -> 0 <= first -> 0 <= len -> first + len <= sizeZ v ->
    exists k, lower_bound_loop fuel v first len x = Ok k /\ first <= k <= first + len /\
      (k = first \/ exists a, atZ v (k - 1) = Ok a /\ nltb a x = true) /\ (k = first + len \/ exists a, atZ v k = Ok a /\ nltb a x = false).
  Proof.
    induction fuel as [|f IH]; intros first len Hf H0 Hl Hs; [lia|]. cbn [lower_bound_loop]. destruct (Z.leb_spec len 0).
    - exists first. repeat split; lia.
    - pose proof (Z.div_mod len 2 ltac:(lia)). pose proof (Z.mod_pos_bound len 2 ltac:(lia)). set (half := len / 2) in *.
      destruct (atZ_ok v (first + half)) as [m Hm]; [lia|]. rewrite Hm. cbn [bind]. destruct (nltb m x) eqn:C.
      + destruct (IH (first + half + 1) (len - half - 1)) as (k & K1 & K2 & K3 & K4); try lia. exists k. split; [exact K1|]. split; [lia|]. split.
        * right. destruct K3 as [->|K3]; [|exact K3]. exists m. split; [rewrite <- Hm; f_equal; lia|exact C].
        * destruct K4 as [->|K4]; [left; lia|right; exact K4].
      + destruct (IH first half) as (k & K1 & K2 & K3 & K4); try lia. exists k. split; [exact K1|]. split; [lia|]. split; [exact K3|].
        right. destruct K4 as [->|K4]; [exists m; split; [exact Hm|exact C]|exact K4].
  Qed.
End Local.
Record good (lm : Libm) (x : @xsec float) (vals sig : list float) (idx : Z) : Prop := mkGood {
  gd_vals : g_vals (x_grid x) = vals; gd_sig : x_vals x = sig; gd_idx : x_index x = idx; gd_multi : x_single x = false;
  gd_sorted : @is_sorted _ (NumF lm) vals = true; gd_fin : Forall fin vals; gd_pos : forall a, atZ vals 0 = Ok a -> 0 <= BR a;
  gd_data : Forall (fun s => datum s /\ 0 <= BR s) sig; gd_range : (0 <= idx < sizeZ vals)%Z; gd_size : sizeZ sig = (sizeZ vals - idx)%Z }.
Lemma zero_fin : fin 0. Proof. reflexivity. Qed.
Lemma zero_V : BR 0 = 0. Proof. reflexivity. Qed.
Lemma eqb_BR (lm : Libm) x y : fin x -> fin y -> PrimFloat.eqb x y = true <-> BR x = BR y.
Proof.
  intros Fx Fy. pose proof (no_eqb (NumF_order lm) x y (fin_notNaN _ Fx) (fin_notNaN _ Fy)) as Q. cbn [neqb nltb NumF] in Q. rewrite Q, andb_true_iff, !negb_true_iff.
  rewrite (ltb_BR_f x y Fx Fy), (ltb_BR_f y x Fy Fx). lra.
Qed.

Section Eval.
  Variables (lm : Libm) (x : @xsec float) (vals sig : list float) (idx : Z).
  Hypothesis Gd : good lm x vals sig idx.
  Let F i a : atZ vals i = Ok a -> fin a.
  Proof using Gd. intros E. pose proof (gd_fin _ _ _ _ _ Gd) as Q. rewrite Forall_forall in Q. exact (Q a (atZ_In _ _ _ E)). Qed.
  Let D i a : atZ sig i = Ok a -> datum a /\ 0 <= BR a.
  Proof using Gd. intros E. pose proof (gd_data _ _ _ _ _ Gd) as Q. rewrite Forall_forall in Q. exact (Q a (atZ_In _ _ _ E)). Qed.
  Let PF : Forall notNaN vals.
  Proof using Gd. eapply Forall_impl; [|exact (gd_fin _ _ _ _ _ Gd)]. exact fin_notNaN. Qed.
  Lemma grid_mono i j a b : (i <= j)%Z -> atZ vals i = Ok a -> atZ vals j = Ok b -> BR a <= BR b.
  Proof using Gd F PF.
    intros I A B. pose proof (@sorted_le _ (NumF lm) notNaN (NumF_order lm) vals PF (gd_sorted _ _ _ _ _ Gd) i j a b I A B) as W. cbn [nltb NumF] in W.
    apply (ltb_BR_f b a (F _ _ B) (F _ _ A)). exact W.
  Qed.
  Lemma grid_pos i a : atZ vals i = Ok a -> 0 <= BR a.
  Proof using Gd F PF.
    intros E. destruct (gd_range _ _ _ _ _ Gd) as [R0 R1]. destruct (atZ_ok vals 0) as [b B]; [lia|]. pose proof (gd_pos _ _ _ _ _ Gd b B) as P.
    pose proof (atZ_inv _ _ _ E) as [I _]. pose proof (grid_mono 0 i b a ltac:(lia) B E). lra.
  Qed.
  Lemma eval_F E : notNaN E -> exists v, @xs_eval _ (NumF lm) x E = Ok v /\ evaluates vals sig idx E v.
  Proof using Gd D F PF.
    intros NE. destruct (gd_range _ _ _ _ _ Gd) as [R0 R1]. pose proof (gd_size _ _ _ _ _ Gd) as Sz.
    destruct (atZ_ok vals idx ltac:(lia)) as [e0 E0]. destruct (atZ_ok vals (sizeZ vals - 1) ltac:(lia)) as [en En]. destruct (atZ_ok sig (sizeZ sig - 1) ltac:(lia)) as [sn Sn].
    unfold xs_eval. rewrite (gd_vals _ _ _ _ _ Gd), (gd_sig _ _ _ _ _ Gd), (gd_idx _ _ _ _ _ Gd), (gd_multi _ _ _ _ _ Gd). unfold backR. rewrite E0. cbn [bind nltb nleb neqb NumF].
    destruct (PrimFloat.ltb E e0) eqn:C0.
    { exists 0%float. split; [reflexivity|]. split; [reflexivity|rewrite zero_V; lra|intros; reflexivity| | |].
      - intros e Ee H. exfalso. assert (e = en) as -> by congruence. pose proof (grid_mono idx (sizeZ vals - 1) _ _ ltac:(lia) E0 En) as W. apply (ltb_BR_f en e0 (F _ _ En) (F _ _ E0)) in W.
        pose proof (no_negtrans (NumF_order lm) _ _ _ NE (fin_notNaN _ (F _ _ En)) (fin_notNaN _ (F _ _ E0)) H W) as X. cbn [nltb NumF] in X. congruence.
      - intros k e l K Ek FE Eq _ _ _. exfalso. apply (ltb_BR E e0 FE (F _ _ E0)) in C0. pose proof (grid_mono _ _ _ _ K E0 Ek). lra.
      - intros k e1 e2 s1 s2 K Ek _ _ _ FE Q. exfalso. apply (ltb_BR E e0 FE (F _ _ E0)) in C0. pose proof (grid_mono _ _ _ _ K E0 Ek). lra. }
    rewrite En. cbn [bind]. change (PrimFloat.leb en E) with (@nleb _ (NumF lm) en E). rewrite (no_leb (NumF_order lm)) by (assumption || exact (fin_notNaN _ (F _ _ En))). cbn [nltb NumF].
    destruct (PrimFloat.ltb E en) eqn:C1; cbn [negb].
    2:{ exists sn. split; [exact Sn|]. destruct (D _ _ Sn) as [[Fs _] Ps]. split; [exact Fs|exact Ps| |intros; assumption| |].
      - intros e Ee H. congruence.
      - intros k e l K Ek FE Eq El L _. exfalso. assert (l = en) as -> by congruence. apply (ltb_BR_f E en FE (F _ _ En)) in C1. lra.
      - intros k e1 e2 s1 s2 K Ek Ek2 _ _ FE Q. exfalso. apply (ltb_BR_f E en FE (F _ _ En)) in C1. pose proof (atZ_inv _ _ _ Ek2) as [I _]. pose proof (grid_mono (k + 1) (sizeZ vals - 1) _ _ ltac:(lia) Ek2 En). lra. }
    assert (FE : fin E) by exact (between_fin E e0 en NE (F _ _ E0) (F _ _ En) C0 C1).
    apply (ltb_BR_f E e0 FE (F _ _ E0)) in C0. apply (ltb_BR E en FE (F _ _ En)) in C1.
    { destruct (search_local (N := NumF lm) vals E (Datatypes.S (length vals)) idx (sizeZ vals - idx)) as (k & Ek & K & KL & KR); [unfold sizeZ in *; lia|lia|lia|lia|].
      unfold lower_bound_range. rewrite Ek. cbn [bind]. cbn [nltb NumF] in KL, KR.
      assert (Kn : (k < sizeZ vals)%Z). { destruct KR as [->|(a & A & _)]; [|apply atZ_inv in A; lia]. destruct KL as [KL|(a & A & KL)]; [lia|]. replace (idx + (sizeZ vals - idx) - 1)%Z with (sizeZ vals - 1)%Z in A by lia. assert (a = en) as -> by congruence. apply (ltb_BR en E (F _ _ En) FE) in KL. lra. }
      assert (KL' : forall j a, (idx <= j < k)%Z -> atZ vals j = Ok a -> BR a < BR E).
      { intros j a J A. destruct KL as [->|(b & B & KL)]; [lia|]. apply (ltb_BR b E (F _ _ B) FE) in KL. pose proof (grid_mono _ _ _ _ (ltac:(lia) : (j <= k - 1)%Z) A B). lra. }
      destruct (atZ_ok vals k ltac:(lia)) as [ek Ak]. rewrite Ak. cbn [bind].
      assert (L2 : BR E <= BR ek). { destruct KR as [->|(a & A & KR)]; [lia|]. assert (a = ek) as -> by congruence. apply (ltb_BR_f ek E (F _ _ Ak) FE) in KR. exact KR. }
      destruct (PrimFloat.eqb E ek) eqn:C3.
      + apply (eqb_BR lm E ek FE (F _ _ Ak)) in C3. destruct (atZ_ok sig (k - idx) ltac:(lia)) as [s Es]. exists s. split; [exact Es|]. destruct (D _ _ Es) as [[Fs _] Ps]. split; [exact Fs|exact Ps| | | |].
        * intros e Ee H. assert (e = e0) as -> by congruence. apply (ltb_BR E e0 FE (F _ _ E0)) in H. lra.
        * intros e Ee H. assert (e = en) as -> by congruence. apply (ltb_BR_f E en FE (F _ _ En)) in H. lra.
        * intros j e l J Ej _ Eq _ _ C. replace j with k; [exact Es|]. destruct (Z_lt_le_dec j k) as [H|H]; [pose proof (KL' j e ltac:(lia) Ej); lra|]. destruct C as [->|(e' & Ee' & Le')]; [lia|].
             destruct (Z_lt_le_dec k j) as [H1|H1]; [|lia]. pose proof (grid_mono _ _ _ _ (ltac:(lia) : (k <= j - 1)%Z) Ak Ee'). lra.
        * intros j e1 e2 s1 s2 J J1 J2 _ _ _ Q. exfalso. destruct (Z_lt_le_dec j k) as [H|H]; [|pose proof (grid_mono _ _ _ _ H Ak J1); lra].
          pose proof (grid_mono _ _ _ _ (ltac:(lia) : (j + 1 <= k)%Z) J2 Ak). lra.
      + assert (C4 : BR E < BR ek). { destruct (Rle_lt_or_eq_dec _ _ L2) as [H|H]; [exact H|]. apply (eqb_BR lm E ek FE (F _ _ Ak)) in H. congruence. }
        destruct (Z.eq_dec k idx) as [->|Ki]; [assert (ek = e0) by congruence; subst; lra|].
        destruct (atZ_ok vals (k - 1) ltac:(lia)) as [el Al]. pose proof (KL' (k - 1)%Z _ ltac:(lia) Al) as L1.
        assert (Uniq : forall j e1 e2, (idx <= j)%Z -> atZ vals j = Ok e1 -> atZ vals (j + 1) = Ok e2 -> BR e1 < BR E -> BR E < BR e2 -> j = (k - 1)%Z).
        { intros j e1 e2 J J1 J2 Q1 Q2. destruct (Z_lt_le_dec j (k - 1)) as [H|H]; [pose proof (grid_mono _ _ _ _ (ltac:(lia) : (j + 1 <= k - 1)%Z) J2 Al); lra|].
          destruct (Z_lt_le_dec (k - 1) j) as [H1|H1]; [|lia]. pose proof (grid_mono _ _ _ _ (ltac:(lia) : (k <= j)%Z) Ak J1). lra. }
        replace (idx + (k - idx - 1))%Z with (k - 1)%Z by lia. replace (k - 1 + 1)%Z with k by lia. rewrite Al, Ak. cbn [bind].
        destruct (atZ_ok sig (k - idx - 1) ltac:(lia)) as [sl Sl]. destruct (atZ_ok sig (k - idx) ltac:(lia)) as [sh Sh]. replace (k - idx - 1 + 1)%Z with (k - idx)%Z by lia. rewrite Sl, Sh. cbn [bind].
        destruct (D _ _ Sl) as [[Fl Ml] Pl], (D _ _ Sh) as [[Fh Mh] Ph]. rewrite <- bpow1023 in Ml, Mh.
        destruct (lin_F E el sl ek sh FE (F _ _ Al) (F _ _ Ak) Fl Fh (grid_pos _ _ Al) ltac:(lra) ltac:(lra) (conj Pl Ml) (conj Ph Mh)) as (V1 & V2 & V3 & V4 & V5).
        eexists. split; [reflexivity|]. change (@lin _ (NumF lm) E el ek sl sh) with ((E - el) / (ek - el) * (sh - sl) + sl)%float. set (v := ((E - el) / (ek - el) * (sh - sl) + sl)%float) in *.
        split; [exact V1|apply V2| | | |].
        * intros e Ee H. assert (e = e0) as -> by congruence. apply (ltb_BR E e0 FE (F _ _ E0)) in H. lra.
        * intros e Ee H. assert (e = en) as -> by congruence. apply (ltb_BR_f E en FE (F _ _ En)) in H. lra.
        * intros j e l J Ej _ Eq _ _ _. exfalso. destruct (Z_lt_le_dec j k) as [H|H]; [pose proof (KL' j e ltac:(lia) Ej); lra|pose proof (grid_mono _ _ _ _ H Ak Ej); lra].
        * intros j e1 e2 s1 s2 J J1 J2 S1 S2 _ [Q1 Q2]. assert (j = (k - 1)%Z) as -> by exact (Uniq j e1 e2 J J1 J2 Q1 Q2). replace (k - 1 + 1)%Z with k in * by lia. replace (k - 1 - idx)%Z with (k - idx - 1)%Z in * by lia.
          assert (e1 = el) as -> by congruence. assert (e2 = ek) as -> by congruence. assert (s1 = sl) as -> by congruence. assert (s2 = sh) as -> by congruence.
          assert (M0 : 0 <= Rmax (BR sl) (BR sh)) by (eapply Rle_trans; [exact Pl|apply Rmax_l]).
          split; [|split; [|split; assumption]].
          -- apply rounded_of; [exact M0|]. unfold exact_line. rewrite Rplus_comm. exact V5.
          -- eapply Rle_trans; [apply V2|]. right. f_equal. f_equal. change (bpow radix2 (-53)) with (/ IZR (2 ^ 53)). rewrite (pow_IZR 2 51). change (2 ^ Z.of_nat 51)%Z with (2 ^ 51)%Z. change (2 ^ 53)%Z with (4 * 2 ^ 51)%Z. rewrite mult_IZR. field. apply not_0_IZR. discriminate. }
  Qed.
End Eval.

Lemma hash_vals {T} {N : Num T} vals NB (g : egrid T) : hash_grid vals NB = Ok g -> g_vals g = vals.
Proof. unfold hash_grid. intros H. repeat (apply bind_ok in H as (? & _ & H)). injection H as <-. reflexivity. Qed.
Lemma good_of lm vals NB sig idx g x : @make_grid _ (NumF lm) vals NB = Ok g \/ @make_grid_ace _ (NumF lm) vals NB = Ok g -> Forall fin vals -> (sizeZ vals < 2 ^ 64)%Z -> (0 <= idx < 2 ^ 32)%Z ->
  @make_xs _ (NumF lm) sig g idx = Ok x \/ ((idx < sizeZ vals)%Z /\ @make_xs_ace _ (NumF lm) (idx + 1) sig g false = Ok x) -> Forall datum sig -> good lm x vals sig idx.
Proof.
  intros HG Fv Sv I HX Fs.
  assert (G : @is_sorted _ (NumF lm) vals = true /\ g_vals g = vals /\ forall a, atZ vals 0 = Ok a -> 0 <= BR a).
  { destruct HG as [H|H]; unfold make_grid, make_grid_ace in H; (destruct (is_sorted vals) eqn:Q; [|discriminate]); cbn [guard bind] in H; apply bind_ok in H as (f & Ef & H); (destruct (_ : bool) eqn:C in H; [discriminate|]); apply hash_vals in H;
    (split; [reflexivity|]); (split; [exact H|]); intros a A; assert (a = f) as -> by (unfold frontR in Ef; congruence); assert (Ff : fin f) by (rewrite Forall_forall in Fv; exact (Fv f (atZ_In _ _ _ A))).
    - apply (ltb_BR_f f 0 Ff zero_fin) in C. rewrite zero_V in C. exact C.
    - rewrite (no_leb (NumF_order lm)) in C by (apply fin_notNaN; assumption || exact zero_fin). apply negb_false_iff in C. apply (ltb_BR 0 f zero_fin Ff) in C. rewrite zero_V in C. lra. }
  destruct G as (G1 & G2 & G3).
  assert (A : any_negative (N := NumF lm) sig = false -> Forall (fun s => datum s /\ 0 <= BR s) sig).
  { intros A. apply Forall_forall. intros s Is. rewrite Forall_forall in Fs. specialize (Fs s Is). split; [exact Fs|]. destruct (Rle_lt_dec 0 (BR s)) as [L|L]; [exact L|]. exfalso.
    rewrite <- not_true_iff_false in A. apply A. apply existsb_exists. exists s. split; [exact Is|]. apply (ltb_BR s 0 (proj1 Fs) zero_fin). rewrite zero_V. exact L. }
  destruct HX as [H|[Hi H]].
  - unfold make_xs, wrap32 in H. rewrite Z.mod_small, G2 in H by lia. destruct (Z.leb_spec (sizeZ vals) idx); [discriminate|]. destruct (any_negative sig) eqn:C; [discriminate|]. unfold wrap64 in H. rewrite Z.mod_small in H by lia.
    destruct (Z.eqb_spec (sizeZ vals - idx) (sizeZ sig)); [|discriminate]. cbn [negb] in H. injection H as <-. split; cbn [x_grid x_vals x_index x_single]; auto; lia.
  - unfold make_xs_ace, wrap32 in H. rewrite Z.mod_small, G2 in H by lia. replace (idx + 1 - 1)%Z with idx in H by lia. unfold wrap64 in H. rewrite Z.mod_small in H by lia.
    destruct (Z.eqb_spec (sizeZ vals - idx) (sizeZ sig)); [|discriminate]. cbn [negb] in H. destruct (any_negative sig) eqn:C; [discriminate|]. cbn [andb] in H. injection H as <-. split; cbn [x_grid x_vals x_index x_single]; auto; lia.
Qed.

(** ** evaluation with a known grid index *)
Lemma eval_i_F lm x vals sig idx i e1 e2 E : good lm x vals sig idx -> (sizeZ vals < 2 ^ 64)%Z -> atZ vals i = Ok e1 -> atZ vals (i + 1) = Ok e2 -> fin E -> BR e1 <= BR E <= BR e2 -> BR e1 < BR e2 ->
  exists v, @xs_eval_i _ (NumF lm) x E i = Ok v /\ evaluates_i sig idx i e1 e2 E v.
Proof.
  intros Gd Sv A1 A2 FE H L. pose proof (gd_range _ _ _ _ _ Gd) as R0. pose proof (gd_size _ _ _ _ _ Gd) as Sz. pose proof (atZ_inv _ _ _ A2) as [I2 _]. pose proof (atZ_inv _ _ _ A1) as [I1 _].
  assert (F : forall i a, atZ vals i = Ok a -> fin a). { intros j a Ej. pose proof (gd_fin _ _ _ _ _ Gd) as Q. rewrite Forall_forall in Q. exact (Q a (atZ_In _ _ _ Ej)). }
  assert (D : forall i a, atZ sig i = Ok a -> datum a /\ 0 <= BR a). { intros j a Ej. pose proof (gd_data _ _ _ _ _ Gd) as Q. rewrite Forall_forall in Q. exact (Q a (atZ_In _ _ _ Ej)). }
  unfold xs_eval_i. rewrite (gd_vals _ _ _ _ _ Gd), (gd_sig _ _ _ _ _ Gd), (gd_idx _ _ _ _ _ Gd), (gd_multi _ _ _ _ _ Gd).
  destruct (Z.ltb_spec i idx) as [Hi|Hi].
  { exists 0%float. split; [reflexivity|]. split; [reflexivity|]. split; [rewrite zero_V; lra|]. split; [reflexivity|]. intros; lia. }
  unfold wrap64. rewrite Z.mod_small by lia. destruct (Z.leb_spec (idx + sizeZ sig - 1) i); [lia|]. replace (idx + (i - idx))%Z with i by lia. rewrite A1, A2. cbn [bind].
  destruct (atZ_ok sig (i - idx) ltac:(lia)) as [s1 S1]. destruct (atZ_ok sig (i + 1 - idx) ltac:(lia)) as [s2 S2]. replace (i - idx + 1)%Z with (i + 1 - idx)%Z by lia. rewrite S1, S2. cbn [bind].
  destruct (D _ _ S1) as [[Fl Ml] Pl], (D _ _ S2) as [[Fh Mh] Ph]. rewrite <- bpow1023 in Ml, Mh.
  destruct (lin_F E e1 s1 e2 s2 FE (F _ _ A1) (F _ _ A2) Fl Fh (grid_pos _ _ _ _ _ Gd _ _ A1) H L (conj Pl Ml) (conj Ph Mh)) as (V1 & V2 & V3 & V4 & V5).
  eexists. split; [reflexivity|]. change (@lin _ (NumF lm) E e1 e2 s1 s2) with ((E - e1) / (e2 - e1) * (s2 - s1) + s1)%float. set (v := ((E - e1) / (e2 - e1) * (s2 - s1) + s1)%float) in *.
  split; [exact V1|]. split; [apply V2|]. split; [lia|]. intros t1 t2 _ T1 T2. assert (t1 = s1) as -> by congruence. assert (t2 = s2) as -> by congruence.
  assert (M0 : 0 <= Rmax (BR s1) (BR s2)) by (eapply Rle_trans; [exact Pl|apply Rmax_l]).
  split; [|split; [|split; assumption]].
  - apply rounded_of; [exact M0|]. unfold exact_line. rewrite Rplus_comm. exact V5.
  - eapply Rle_trans; [apply V2|]. right. f_equal. f_equal. change (bpow radix2 (-53)) with (/ IZR (2 ^ 53)). rewrite (pow_IZR 2 51). change (2 ^ Z.of_nat 51)%Z with (2 ^ 51)%Z. change (2 ^ 53)%Z with (4 * 2 ^ 51)%Z. rewrite mult_IZR. field. apply not_0_IZR. discriminate.
Qed.

(** ** overshoot *)
Definition ov_grid : list float := [0x1p-53; 0x1.0000000000003p0]%float.
Definition ov_sig : list float := [0x1.8p-52; 0x1.0000000000005p0]%float.
Definition ov_E : float := 0x1.0000000000002p0%float.
Lemma overshoot lm : forall g : egrid float, g_vals g = ov_grid -> exists x v, @make_xs _ (NumF lm) ov_sig g 0 = Ok x /\ @xs_eval _ (NumF lm) x ov_E = Ok v /\
  PrimFloat.ltb (nth 0 ov_grid 0%float) ov_E = true /\ PrimFloat.ltb ov_E (nth 1 ov_grid 0%float) = true /\ PrimFloat.ltb (nth 0 ov_sig 0%float) (nth 1 ov_sig 0%float) = true /\ PrimFloat.ltb (nth 1 ov_sig 0%float) v = true.
Proof.
  intros g Hg. exists (mkXs g ov_sig 0 false). eexists. split.
  - unfold make_xs. rewrite Hg. vm_compute. reflexivity.
  - split; [unfold xs_eval; cbn [x_grid x_vals x_index x_single]; rewrite Hg; vm_compute; reflexivity|]. vm_compute. repeat split.
Qed.
Lemma ov_data : Forall fin ov_grid /\ Forall datum ov_sig.
Proof.
  split; [repeat constructor|]. assert (D : forall y : float, fin y -> PrimFloat.ltb y 2 = true -> datum y).
  { intros y Fy H. split; [exact Fy|]. apply (ltb_BR y 2 Fy) in H; [|reflexivity]. assert (BR 2 = 2) by (apply (ofZ_BR 2); lia). pose proof (pow_le 2 1023 ltac:(lra)). apply Rle_trans with (2 ^ 1); [lra|]. apply Rle_pow; [lra|lia]. }
  repeat (apply Forall_cons; [apply D; reflexivity|]). apply Forall_nil.
Qed.

(** ** lin-lin tables *)
From Verif Require Import M_Tab1D L_Tab1D.
Lemma bpow53_51 : 1 + 4 * bpow radix2 (-53) = 1 + / 2 ^ 51.
Proof. f_equal. change (bpow radix2 (-53)) with (/ IZR (2 ^ 53)). rewrite (pow_IZR 2 51). change (2 ^ Z.of_nat 51)%Z with (2 ^ 51)%Z. change (2 ^ 53)%Z with (4 * 2 ^ 51)%Z. rewrite mult_IZR. field. apply not_0_IZR. discriminate. Qed.
Lemma table_F lm xs ys t E : @make_tab1 _ (NumF lm) LinLin xs ys = Ok t -> (0 < sizeZ xs < 2 ^ 32)%Z -> Forall fin xs -> (forall a, atZ xs 0 = Ok a -> 0 <= BR a) -> Forall (fun s => datum s /\ 0 <= BR s) ys -> notNaN E ->
  exists v, @tab_eval _ (NumF lm) t E = Ok v /\ table_evaluates xs ys E v.
Proof.
  intros M Sz Fx Px Fy NE. unfold make_tab1 in M.
  destruct (Nat.eqb_spec (length xs) (length ys)) as [Ln|]; [|discriminate]. cbn [guard bind] in M. destruct (is_sorted xs) eqn:Srt; [|discriminate]. cbn [guard bind] in M.
  change 4294967296%Z with (2 ^ 32)%Z in M. rewrite Z.mod_small in M by lia. assert (Sy : sizeZ ys = sizeZ xs) by (unfold sizeZ; lia).
  assert (SL : forall A (l : list A), sizeZ l = sizeZ xs -> slice l 0 (sizeZ xs) = Ok l).
  { intros A l Hl. unfold slice. rewrite Hl. replace ((0 <=? 0) && (0 <=? sizeZ xs) && (sizeZ xs <=? sizeZ xs))%Z%bool with true by lia. change (Z.to_nat 0) with O. cbn [skipn]. f_equal. rewrite <- Hl. unfold sizeZ. rewrite Z.sub_0_r, Nat2Z.id. apply firstn_all. }
  rewrite (SL _ xs eq_refl), (SL _ ys Sy) in M. cbn [bind] in M. apply bind_ok in M as (r & Mr & M). injection M as <-.
  assert (Er : r = mkRange LinLin xs ys).
  { unfold make_range in Mr. destruct (Nat.eqb (length xs) (length ys)); [|discriminate]. cbn [guard bind] in Mr. destruct (negb (Nat.eqb (length xs) 0)); [|discriminate]. cbn [guard bind] in Mr. rewrite Srt in Mr. cbn [guard bind] in Mr.
    apply bind_ok in Mr as (? & _ & Mr). apply bind_ok in Mr as (? & _ & Mr). injection Mr as <-. reflexivity. }
  subst r.
  assert (F : forall i a, atZ xs i = Ok a -> fin a) by (intros i a Q; rewrite Forall_forall in Fx; exact (Fx a (atZ_In _ _ _ Q))).
  assert (D : forall i a, atZ ys i = Ok a -> datum a /\ 0 <= BR a) by (intros i a Q; rewrite Forall_forall in Fy; exact (Fy a (atZ_In _ _ _ Q))).
  assert (PF : Forall notNaN xs) by (eapply Forall_impl; [|exact Fx]; exact fin_notNaN).
  assert (Mono : forall i j a b, (i <= j)%Z -> atZ xs i = Ok a -> atZ xs j = Ok b -> BR a <= BR b).
  { intros i j a b I A B. pose proof (@sorted_le _ (NumF lm) notNaN (NumF_order lm) xs PF Srt i j a b I A B) as W. cbn [nltb NumF] in W. apply (ltb_BR_f b a (F _ _ B) (F _ _ A)). exact W. }
  destruct (atZ_ok xs 0 ltac:(lia)) as [e0 E0]. destruct (atZ_ok xs (sizeZ xs - 1) ltac:(lia)) as [en En]. destruct (atZ_ok ys 0 ltac:(lia)) as [s0 S0]. destruct (atZ_ok ys (sizeZ ys - 1) ltac:(lia)) as [sn Sn].
  unfold tab_eval. cbn [t_x t_regions]. unfold range_eval, range_min, range_max. unfold frontR at 1. rewrite E0. cbn [bind]. change (frontR [mkRange LinLin xs ys]) with (Ok (mkRange LinLin xs ys)). change (backR [mkRange LinLin xs ys]) with (Ok (mkRange LinLin xs ys)). cbn [bind r_x r_y r_interp].
  unfold range_eval, range_min, range_max, frontR, backR. cbn [r_x r_y r_interp]. rewrite E0. cbn [bind]. rewrite !(no_leb (NumF_order lm)) by (assumption || exact (fin_notNaN _ (F _ _ E0))). cbn [nltb NumF].
  destruct (PrimFloat.ltb e0 E) eqn:C0; cbn [negb].
  2:{ exists s0. split; [exact S0|]. destruct (D _ _ S0) as [[Fs _] Ps]. split; [exact Fs|exact Ps|intros; assumption| |].
      - intros e e' Ee Ee' H _. assert (e' = e0) as -> by congruence. change (PrimFloat.leb E e0) with (@nleb _ (NumF lm) E e0) in H. rewrite (no_leb (NumF_order lm)) in H by (assumption || exact (fin_notNaN _ (F _ _ E0))). cbn [nltb NumF] in H. rewrite C0 in H. discriminate.
      - intros k e1 e2 s1 s2 K1 K2 _ _ FE Q _. exfalso. apply (ltb_BR_f e0 E (F _ _ E0) FE) in C0. pose proof (atZ_inv _ _ _ K1) as [I _]. pose proof (Mono 0%Z k _ _ ltac:(lia) E0 K1). lra. }
  rewrite En. cbn [bind]. rewrite !(no_leb (NumF_order lm)) by (assumption || exact (fin_notNaN _ (F _ _ En))). cbn [nltb NumF].
  assert (B0 : PrimFloat.leb E e0 = false) by (change (PrimFloat.leb E e0) with (@nleb _ (NumF lm) E e0); rewrite (no_leb (NumF_order lm)) by (assumption || exact (fin_notNaN _ (F _ _ E0))); cbn [nltb NumF]; rewrite C0; reflexivity).
  assert (Bl : forall e, atZ xs 0 = Ok e -> PrimFloat.leb E e = true -> False) by (intros e Ee H; assert (e = e0) as -> by congruence; congruence).
  destruct (PrimFloat.ltb E en) eqn:C1; cbn [negb].
  2:{ exists sn. split; [exact Sn|]. destruct (D _ _ Sn) as [[Fs _] Ps]. split; [exact Fs|exact Ps|intros e Ee H; exfalso; eauto|intros; exact Sn|].
      - intros k e1 e2 s1 s2 _ _ _ _ FE _ Q. apply (ltb_BR_f E en FE (F _ _ En)) in C1. specialize (Q en En). lra. }
  assert (FE : fin E). { apply (between_fin E e0 en NE (F _ _ E0) (F _ _ En)); [|exact C1]. pose proof (no_irrefl (NumF_order lm) E NE) as I. destruct (PrimFloat.ltb E e0) eqn:Q; [|reflexivity]. pose proof (no_trans (NumF_order lm) _ _ _ NE (fin_notNaN _ (F _ _ E0)) NE Q C0) as W. cbn [nltb NumF] in *. congruence. }
  apply (ltb_BR e0 E (F _ _ E0) FE) in C0. apply (ltb_BR E en FE (F _ _ En)) in C1.
  cbn [regions_eval]. unfold range_max, range_eval, range_min, range_max, frontR, backR. cbn [r_x r_y r_interp]. rewrite En. cbn [bind nltb NumF]. rewrite (proj2 (ltb_BR_f en E (F _ _ En) FE)) by lra. rewrite E0. cbn [bind].
  rewrite !(no_leb (NumF_order lm)) by (assumption || exact (fin_notNaN _ (F _ _ E0)) || exact (fin_notNaN _ (F _ _ En))). cbn [nltb NumF]. rewrite (proj2 (ltb_BR e0 E (F _ _ E0) FE)) by lra. rewrite (proj2 (ltb_BR E en FE (F _ _ En))) by lra. cbn [negb].
  destruct (@lower_bound_spec _ (NumF lm) notNaN (NumF_order lm) xs E PF NE Srt) as (k & Ek & K0 & K1 & K2). cbn [nltb NumF] in K1, K2. rewrite Ek. cbn [bind].
  assert (Kn : (k < sizeZ xs)%Z). { destruct (Z.eq_dec k (sizeZ xs)) as [->|]; [|lia]. specialize (K1 (sizeZ xs - 1)%Z _ ltac:(lia) En). apply (ltb_BR en E (F _ _ En) FE) in K1. lra. }
  assert (Ki : (0 < k)%Z). { destruct (Z.eq_dec k 0) as [->|]; [|lia]. specialize (K2 0%Z _ ltac:(lia) E0). apply (ltb_BR_f e0 E (F _ _ E0) FE) in K2. lra. }
  destruct (atZ_ok xs (k - 1) ltac:(lia)) as [el Al]. destruct (atZ_ok xs k ltac:(lia)) as [ek Ak]. rewrite Al, Ak. cbn [bind]. replace (k - 1 + 1)%Z with k by lia.
  destruct (atZ_ok ys (k - 1) ltac:(lia)) as [sl Sl]. destruct (atZ_ok ys k ltac:(lia)) as [sh Sh]. rewrite Sl, Sh. cbn [bind].
  pose proof (K1 (k - 1)%Z _ ltac:(lia) Al) as L1. apply (ltb_BR el E (F _ _ Al) FE) in L1. pose proof (K2 k _ ltac:(lia) Ak) as L2. apply (ltb_BR_f ek E (F _ _ Ak) FE) in L2.
  destruct (D _ _ Sl) as [[Fl Ml] Pl], (D _ _ Sh) as [[Fh Mh] Ph]. rewrite <- bpow1023 in Ml, Mh. pose proof (Px _ E0) as P0. pose proof (Mono 0%Z (k - 1)%Z _ _ ltac:(lia) E0 Al) as P1.
  destruct (lin_F E el sl ek sh FE (F _ _ Al) (F _ _ Ak) Fl Fh ltac:(lra) ltac:(lra) ltac:(lra) (conj Pl Ml) (conj Ph Mh)) as (V1 & V2 & _ & _ & V5).
  eexists. split; [reflexivity|]. change (@interpolate _ (NumF lm) LinLin E el sl ek sh) with ((E - el) / (ek - el) * (sh - sl) + sl)%float. set (v := ((E - el) / (ek - el) * (sh - sl) + sl)%float) in *.
  split; [exact V1|apply V2|intros e Ee H; exfalso; eauto| |].
  - intros e e' Ee _ _ H. exfalso. assert (e = en) as -> by congruence. change (PrimFloat.leb en E) with (@nleb _ (NumF lm) en E) in H. rewrite (no_leb (NumF_order lm)) in H by (assumption || exact (fin_notNaN _ (F _ _ En))). cbn [nltb NumF] in H. apply negb_true_iff in H. apply (ltb_BR_f E en FE (F _ _ En)) in H. lra.
  - intros j e1 e2 s1 s2 J1 J2 S1 S2 _ [Q1 Q2] _. assert (j = (k - 1)%Z) as ->.
    { destruct (Z_lt_le_dec j (k - 1)) as [H|H]; [pose proof (Mono (j + 1)%Z (k - 1)%Z _ _ ltac:(lia) J2 Al); lra|]. destruct (Z_lt_le_dec (k - 1) j) as [H1|H1]; [|lia]. pose proof (Mono k j _ _ ltac:(lia) Ak J1). lra. }
    replace (k - 1 + 1)%Z with k in * by lia. assert (e1 = el) as -> by congruence. assert (e2 = ek) as -> by congruence. assert (s1 = sl) as -> by congruence. assert (s2 = sh) as -> by congruence.
    apply rounded_of; [eapply Rle_trans; [exact Pl|apply Rmax_l]|]. unfold exact_line. rewrite Rplus_comm. exact V5.
Qed.
