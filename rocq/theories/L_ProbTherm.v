(** * Laws of the thermal samplers: coherent elastic *)
From Coq Require Import Reals Lra Lia List Arith ZArith ZifyBool ZifyNat. From Coquelicot Require Import Coquelicot.
From Verif Require Import Base NumR S_Prob S_Mix S_Replay L_Search L_SearchR M_Thermal S_OutE S_Thermal S_ThermalLaw L_Thermal L_Legendre L_Prob L_ProbEv L_ProbLaw L_ProbLoop L_ProbComp L_Replay L_ProbPick. Import ListNotations.
Local Open Scope R_scope.
Local Notation iR := (@is_RInt R_NormedModule).

(** 1 - x is as uniform as x *)
Lemma iR_flip (g : R -> R) v : iR g 0 1 v -> iR (fun x => g (1 - x)) 0 1 v.
Proof.
  intros H. apply (is_RInt_swap (V := R_NormedModule)) in H.
  assert (I : iR g (-1 * 0 + 1) (-1 * 1 + 1) (opp v)) by (replace (-1 * 0 + 1) with 1 by ring; replace (-1 * 1 + 1) with 0 by ring; exact H).
  apply (is_RInt_comp_lin (V := R_NormedModule) g (-1) 1 0 1) in I. apply (is_RInt_scal (V := R_NormedModule) _ _ _ (-1)) in I.
  eapply iR_eq; [|eapply is_RInt_ext; [|exact I]].
  - unfold opp, scal; cbn; unfold mult; cbn. ring.
  - intros x _. unfold scal; cbn; unfold mult; cbn. replace (-1 * x + 1) with (1 - x) by ring. ring.
Qed.
Definition flip {A} (s : rand R A) : rand R A := fun ds => match ds with x :: t => s ((1 - x) :: t) | [] => s [] end.
Lemma law_flip {A} (s : rand R A) (B : A -> Prop) q : law (flip s) B q -> law s B q.
Proof.
  intros (p & H & L). exists p. split; [|exact L]. intros [|k].
  - destruct (H 0%nat) as (f & F & X). exists f. split; [|exact X]. intros l Hl. destruct l; [|destruct Hl; discriminate]. exact (F [] Hl).
  - destruct (H (S k)) as (f & F & g & G & I). exists (fun l => match l with x :: t => f ((1 - x) :: t) | [] => 0 end). split.
    + intros l Hl. destruct l as [|x t]; [destruct Hl; discriminate|]. apply ud_cons in Hl as [Hx Ht].
      destruct (F ((1 - x) :: t)) as [[a b]|[a b]]; [apply ud_cons; split; [lra|exact Ht]| |]; cbn [flip] in a; replace (1 - (1 - x)) with x in a by ring; [left|right]; (split; [exact a|exact b]).
    + exists (fun x => g (1 - x)). split; [|apply iR_flip, I]. intros x Hx. apply G. lra.
Qed.
Lemma sum_to_rev (q : Z -> R) : forall n, sum_to (S n) (fun k => q (Z.of_nat n - k)%Z) = sum_to (S n) q.
Proof.
  induction n as [|n IH]; [cbn; ring|]. rewrite sum_to_S. rewrite (sum_to_ext _ (fun k => q (Z.of_nat n - k)%Z)) by (intros k _; f_equal; lia). rewrite IH.
  replace (Z.of_nat (S n) - 0)%Z with (Z.of_nat (S n)) by lia. change (sum_to (S (S n)) q) with (sum_to (S n) q + q (Z.of_nat (S n))). ring.
Qed.
Lemma coh_law c E l (B : R * R -> Prop) (dec : forall v, {B v} + {~ B v}) : valid_coh c -> increasing (c_sum c) -> 0 <= getR (c_sum c) 0 -> last_edge_below (c_edges c) E l -> 0 < getR (c_sum c) l ->
  law (coh_sample c E) B (sum_of (l + 1) (fun m => structure_step (c_sum c) m / getR (c_sum c) l * one_if (dec (1 - 2 * getR (c_edges c) m / E, E)))).
Proof.
  intros V Is S0 Hl Pl. pose proof (vc_size _ V) as Sz. destruct Hl as (L0 & L1 & L2). assert (Hl : last_edge_below (c_edges c) E l) by (split; [exact L0|split; assumption]).
  assert (E0 : getR (c_edges c) 0 < E) by (apply Rle_lt_trans with (getR (c_edges c) l); [apply (vc_edges _ V); lia|exact L1]).
  set (F := fun m (ds : list R) => @Ok ((R * R) * list R) ((1 - 2 * getR (c_edges c) m / E, E), ds)). set (w := fun m => if (0 <=? m)%Z && (m <=? l)%Z then structure_step (c_sum c) m / getR (c_sum c) l else 0).
  set (P := fun m => if (m <? 0)%Z then 0 else getR (c_sum c) m / getR (c_sum c) l).
  assert (Wp : forall m, (0 <= m <= l)%Z -> w m = P m - P (m - 1)%Z).
  { intros m Hm. unfold w, P, structure_step. destruct (Z.leb_spec 0 m); [|lia]. destruct (Z.leb_spec m l); [|lia]. cbn. destruct (Z.ltb_spec m 0); [lia|]. destruct (Z.eqb_spec m 0) as [N|N]; destruct (Z.ltb_spec (m - 1) 0); try lia; [rewrite N; lra|field; lra]. }
  assert (W : forall m, 0 <= w m).
  { intros m. unfold w, structure_step. destruct (Z.leb_spec 0 m); [|cbn; lra]. destruct (Z.leb_spec m l); [|cbn; lra]. cbn. apply Rmult_le_pos; [|left; apply Rinv_0_lt_compat; exact Pl]. destruct (Z.eqb_spec m 0); [exact S0|]. assert (getR (c_sum c) (m - 1) <= getR (c_sum c) m) by (apply Is; lia). lra. }
  apply law_flip.
  eapply law_val; [|apply (law_weighted (flip (coh_sample c E)) (Z.to_nat (l + 1)) (fun k => w (l - k)%Z) (fun k => F (l - k)%Z) B (fun k => one_if (dec (1 - 2 * getR (c_edges c) (l - k)%Z / E, E))))].
  - unfold sum_of. replace (Z.to_nat (l + 1)) with (Datatypes.S (Z.to_nat l)) by lia. rewrite <- (sum_to_rev (fun m => structure_step (c_sum c) m / getR (c_sum c) l * one_if (dec (1 - 2 * getR (c_edges c) m / E, E)))). apply sum_to_ext.
    intros k Hk. rewrite Z2Nat.id by lia. unfold w. destruct (Z.leb_spec 0 (l - k)); [|lia]. destruct (Z.leb_spec (l - k) l); [|lia]. reflexivity.
  - intros v r. unfold flip, coh_sample. destruct (sizeZ (c_edges c) =? 0)%Z; [discriminate|]. unfold rbind at 1. destruct (rlift (frontR (c_edges c)) []) as [[e0 d]| | |] eqn:EE; cbn [bind]; try discriminate.
    unfold rlift in EE. apply bind_ok in EE as (x & Ex & EE). injection EE as <- <-. assert (x = getR (c_edges c) 0) as ->.
    { unfold frontR in Ex. rewrite (atR (c_edges c) 0) in Ex by lia. apply Ok_eq in Ex. symmetry. exact Ex. }
    assert (N : @nltb R NumR (getR (c_edges c) 0) E = true) by (apply Rltb_true; exact E0). rewrite N. unfold rbind at 1. destruct (rlift (lower_bound (c_edges c) E) []) as [[k d]| | |] eqn:EE; cbn [bind]; try discriminate.
    unfold rlift in EE. apply bind_ok in EE as (x & Ex' & EE). injection EE as <- <-. cbn. discriminate.
  - intros k. apply W.
  - assert (G : forall k, (0 <= k <= l + 1)%Z -> sum_to (Z.to_nat k) (fun i => w (l - i)%Z) = 1 - P (l - k)%Z).
    { intros k Hk. rewrite <- (Z2Nat.id k) at 2 by lia. assert (Hn : (Z.of_nat (Z.to_nat k) <= l + 1)%Z) by lia. revert Hn. generalize (Z.to_nat k) as n. induction n as [|n IH]; intros Hn.
      - cbn [sum_to]. unfold P. replace (l - Z.of_nat 0)%Z with l by lia. destruct (Z.ltb_spec l 0); [lia|]. unfold Rdiv. rewrite Rinv_r by lra. lra.
      - cbn [sum_to]. rewrite IH by lia. rewrite Wp by lia. replace (l - Z.of_nat (S n))%Z with (l - Z.of_nat n - 1)%Z by lia. ring. }
    rewrite G by lia. unfold P. destruct (Z.ltb_spec (l - (l + 1)) 0); [lra|lia].
  - lia.
  - intros x ds Hx O. destruct (coh_sample_spec c E (1 - x) ds V Is S0 ltac:(lia) E0 ltac:(lra)) as (l' & m & Hl' & Hm & M1 & M2 & Es & _). pose proof (last_edge_unique _ _ _ _ (vc_edges _ V) Hl' Hl) as ->. 
    assert (G : forall k, (0 <= k <= l + 1)%Z -> sum_to (Z.to_nat k) (fun i => w (l - i)%Z) = 1 - P (l - k)%Z).
    { intros k Hk. rewrite <- (Z2Nat.id k) at 2 by lia. assert (Hn : (Z.of_nat (Z.to_nat k) <= l + 1)%Z) by lia. revert Hn. generalize (Z.to_nat k) as n. induction n as [|n IH]; intros Hn.
      - cbn [sum_to]. unfold P. replace (l - Z.of_nat 0)%Z with l by lia. destruct (Z.ltb_spec l 0); [lia|]. unfold Rdiv. rewrite Rinv_r by lra. lra.
      - cbn [sum_to]. rewrite IH by lia. rewrite Wp by lia. replace (l - Z.of_nat (S n))%Z with (l - Z.of_nat n - 1)%Z by lia. ring. }
    exists (l - m)%Z. split; [lia|]. split.
    + replace (Datatypes.S (Z.to_nat (l - m))) with (Z.to_nat (l - m + 1)) by lia. rewrite !G by lia. replace (l - (l - m))%Z with m by lia. replace (l - (l - m + 1))%Z with (m - 1)%Z by lia. unfold P.
      destruct (Z.ltb_spec m 0); [lia|]. split.
      * assert (1 - x <= getR (c_sum c) m / getR (c_sum c) l) by (apply Rle_div_r; lra). lra.
      * destruct (Z.ltb_spec (m - 1) 0); [lra|]. assert (getR (c_sum c) (m - 1) / getR (c_sum c) l < 1 - x) by (apply Rlt_div_l; [lra|]; apply M2; lia). lra.
    + cbn [flip]. rewrite Es. unfold F. replace (l - (l - m))%Z with m by lia. reflexivity.
  - intros k Hk. apply law_value. intros ds _. reflexivity.
Qed.
