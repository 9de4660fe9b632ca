(** * binary64 counterexamples for the hashed energy grid *)
From Verif Require Import Base NumF L_Search M_Grid.
Local Open Scope float_scope.

Lemma hash_loop_length {T} {N : Num T} n : forall vals du E l, hash_loop n vals du E = Ok l -> length l = n.
Proof.
  induction n as [|n IH]; intros vals du E l H; cbn [hash_loop] in H.
  - injection H as <-. reflexivity.
  - apply bind_ok in H as (k & _ & H). apply bind_ok in H as (r & Hr & H). injection H as <-. cbn. f_equal. eapply IH; eauto.
Qed.

(** the double just below 20, and ln 20 rounded to double (ln of both rounds to it) *)
Definition below20 : float := 0x1.3ffffffffffffp+4.
Definition ln20 : float := 0x1.7f7427b73e391p+1.
Lemma below20_lt : PrimFloat.ltb below20 20 = true. Proof. reflexivity. Qed.
Lemma bin_overflow : @trunc_u32 float (NumF {| lm_exp := fun x => x; lm_log := fun x => x; lm_pow := fun x _ => x; lm_sin := fun x => x; lm_cos := fun x => x; lm_sinh := fun x => x; lm_cosh := fun x => x; lm_erf := fun x => x; lm_pi := 0 |})
   ((ln20 - 0) / ((ln20 - 0) / F_ofZ 8192)) = Ok 8192%Z.
Proof. vm_compute. reflexivity. Qed.

(** with the default 8192 hash bins the bin of the last double below the top of the grid is out of range *)
Lemma top_of_grid_oob lm NB g : Z.of_nat NB = 8192%Z -> lm_log lm 1 = 0 -> lm_log lm 20 = ln20 -> lm_log lm below20 = ln20 ->
  @make_grid float (NumF lm) [1; 20] NB = Ok g -> @get_lower_index float (NumF lm) g below20 = UB.
Proof.
  intros HN H1 H2 H3 H. unfold make_grid in H.
  change (@is_sorted float (NumF lm) [1; 20]) with true in H. cbn [guard bind] in H.
  change (frontR [1;20]) with (@Ok float 1) in H. cbn [bind] in H.
  change (@nltb float (NumF lm) 1 (@nofZ float (NumF lm) 0)) with false in H. cbv iota in H. unfold hash_grid in H.
  change (frontR [1;20]) with (@Ok float 1) in H. change (backR [1;20]) with (@Ok float 20) in H. cbn [bind] in H.
  apply bind_ok in H as (l & Hl & H). apply hash_loop_length in Hl. injection H as <-.
  unfold get_lower_index. cbn [g_vals g_ptrs g_umin g_du].
  change (frontR [1;20]) with (@Ok float 1). change (backR [1;20]) with (@Ok float 20). cbn [bind].
  change (@nleb float (NumF lm) below20 1) with false. change (@nleb float (NumF lm) 20 below20) with false. cbv iota.
  change (@nlog float (NumF lm) 20) with (lm_log lm 20). change (@nlog float (NumF lm) 1) with (lm_log lm 1). change (@nlog float (NumF lm) below20) with (lm_log lm below20).
  rewrite H1, H2, H3, HN.
  match goal with |- context [trunc_u32 ?a] => change (@trunc_u32 float (NumF lm) a) with (@Ok Z 8192%Z) end. cbn [bind].
  destruct (atZ (0%Z :: l) 8192) eqn:E1; try reflexivity; [|exfalso|exfalso]; cbn [bind];
    try (destruct (atZ_res (0%Z :: l) 8192) as [[? Q]|Q]; rewrite Q in E1; discriminate).
  rewrite atZ_out; [reflexivity|]. unfold sizeZ. cbn [length]. rewrite Hl, Nat2Z.inj_succ, HN. lia.
Qed.

(** a libm exact where the examples use it *)
Definition lm_grid : Libm := {| lm_exp := fun x => 1 + x; lm_log := fun x => if PrimFloat.eqb x 1 then 0 else if PrimFloat.eqb x 0 then neg_infinity else ln20;
  lm_pow := fun x _ => x; lm_sin := fun x => x; lm_cos := fun x => x; lm_sinh := fun x => x; lm_cosh := fun x => x;
  lm_erf := fun x => x; lm_pi := 0x1.921fb54442d18p+1 |}.
Lemma top_of_grid_built : exists g, @make_grid float (NumF lm_grid) [1; 20] (Z.to_nat 8192) = Ok g.
Proof. eexists. vm_compute. reflexivity. Qed.
Definition ln_half : float := -0x1.62e42fefa39efp-1.
(** the vector constructor accepts a grid starting at energy zero; every lookup inside it is undefined *)
Lemma zero_grid_ub lm : lm_log lm 0 = neg_infinity -> lm_log lm 0.5 = ln_half -> lm_log lm 1 = 0 ->
  forall g, @make_grid float (NumF lm) [0; 1] 8 = Ok g -> @get_lower_index float (NumF lm) g 0.5 = UB.
Proof.
  intros H1 Hx H2 g H. set (NB := 8%nat) in H. unfold make_grid in H.
  change (@is_sorted float (NumF lm) [0; 1]) with true in H. cbn [guard bind] in H.
  change (frontR [0;1]) with (@Ok float 0) in H. cbn [bind] in H.
  change (@nltb float (NumF lm) 0 (@nofZ float (NumF lm) 0)) with false in H. cbv iota in H. unfold hash_grid in H.
  change (frontR [0;1]) with (@Ok float 0) in H. change (backR [0;1]) with (@Ok float 1) in H. cbn [bind] in H.
  apply bind_ok in H as (l & Hl & H). injection H as <-.
  unfold get_lower_index. cbn [g_vals g_ptrs g_umin g_du].
  change (frontR [0;1]) with (@Ok float 0). change (backR [0;1]) with (@Ok float 1). cbn [bind].
  change (@nleb float (NumF lm) 0.5 0) with false. change (@nleb float (NumF lm) 1 0.5) with false. cbv iota.
  change (@nlog float (NumF lm) 0) with (lm_log lm 0). change (@nlog float (NumF lm) 1) with (lm_log lm 1). change (@nlog float (NumF lm) 0.5) with (lm_log lm 0.5).
  rewrite H1, H2, Hx. change (Z.of_nat NB) with 8%Z.
  match goal with |- context [trunc_u32 ?a] => change (@trunc_u32 float (NumF lm) a) with (@UB Z) end. reflexivity.
Qed.
Lemma zero_grid_built : exists g, @make_grid float (NumF lm_grid) [0; 1] 8 = Ok g.
Proof. eexists. vm_compute. reflexivity. Qed.
