(** * Laws of the thermal samplers: discrete outgoing energies and cosines *)
From Coq Require Import Reals Lra Lia List Arith ZArith ZifyBool ZifyNat. From Coquelicot Require Import Coquelicot.
From Verif Require Import Base NumR S_Prob S_Mix S_Replay L_Search L_SearchR M_Grid M_OutE M_Thermal S_OutE S_Thermal S_ThermalLaw M_PC L_Angle L_Grid L_Thermal L_Legendre L_Prob L_ProbEv L_ProbLaw L_ProbLoop L_ProbComp L_Replay L_ProbPick. Import ListNotations.
Local Open Scope R_scope.

Lemma neighbours_mix ed E i1 i2 f j1 j2 g (h : Z -> R) : increasing ed -> neighbours ed E i1 i2 f -> neighbours ed E j1 j2 g -> mix f (h i1) (h i2) = mix g (h j1) (h j2).
Proof.
  intros I (A1 & A2 & A3 & A) (B1 & B2 & B3 & B).
  assert (M : forall i j, (0 <= i <= j)%Z -> (j < sizeZ ed)%Z -> getR ed i <= getR ed j) by (intros i j H1 H2; apply I; lia).
  destruct A as [(A & -> & ->)|[(A & -> & ->)|(A & A4 & A5)]], B as [(B & -> & ->)|[(B & -> & ->)|(B & B4 & B5)]]; try (unfold mix; ring).
  - pose proof (M 0%Z (sizeZ ed - 1)%Z ltac:(lia) ltac:(lia)). exfalso; lra.
  - pose proof (M 0%Z j1 ltac:(lia) ltac:(lia)). exfalso; lra.
  - pose proof (M 0%Z (sizeZ ed - 1)%Z ltac:(lia) ltac:(lia)). exfalso; lra.
  - pose proof (M j2 (sizeZ ed - 1)%Z ltac:(lia) ltac:(lia)). exfalso; lra.
  - pose proof (M 0%Z i1 ltac:(lia) ltac:(lia)). exfalso; lra.
  - pose proof (M i2 (sizeZ ed - 1)%Z ltac:(lia) ltac:(lia)). exfalso; lra.
  - assert (i1 = j1) as <-.
    { destruct (Z.lt_trichotomy i1 j1) as [H|[H|H]]; [|exact H|]; exfalso.
      - pose proof (M i2 j1 ltac:(lia) ltac:(lia)). lra.
      - pose proof (M j2 i1 ltac:(lia) ltac:(lia)). lra. }
    assert (i2 = j2) as <- by lia. assert (Q : f = g) by (unfold mix in A5, B5; apply Rmult_eq_reg_r with (getR ed i2 - getR ed i1); lra). rewrite Q. reflexivity.
Qed.
(** the continuation of the outgoing energy's index *)
Lemma law_index {A} d (K : Z -> rand R A) (B : A -> Prop) (q : Z -> R) : valid_dce d -> (forall j, (0 <= j < d_noe d)%Z -> law (K j) B (q j)) ->
  law (rbind (dce_index d) K) B (sum_of (d_noe d) (fun j => energy_weight (d_skewed d) (d_noe d) j * q j)).
Proof.
  intros V H. destruct (d_skewed d) eqn:Q.
  - pose proof (vd_six _ V Q) as N6. pose proof (unit_prob_pos _ N6) as (P1 & P2 & P3). pose proof (vd_noe _ V) as N32. set (n := d_noe d) in *. set (c := unit_prob n) in *.
    assert (W : forall k, (0 <= k <= n)%Z -> wrap32 (n - k) = (n - k)%Z) by (intros; unfold wrap32; rewrite Z.mod_small; lia).
    assert (N6' : 6 <= IZR n) by (apply IZR_le; exact N6). assert (W' : IZR (n - 4) = IZR n - 4) by (rewrite minus_IZR; reflexivity).
    set (mid := rbind (@draw R) (fun x => rbind (rlift (@trunc_u32 R NumR (IZR (n - 4) * x + 2))) K)).
    assert (Lm : law mid B (sum_of (n - 4) (fun k => q (k + 2)%Z) / IZR (n - 4))).
    { apply (law_uniform mid (n - 4) (fun k => K (k + 2)%Z)); [intros v r; unfold mid; cbn; discriminate|lia| |intros k Hk; apply H; lia].
      intros x ds Hx O. destruct (trunc_bin (n - 4) x ltac:(lia) ltac:(lra)) as (k & Ek & Kk). exists k. split; [exact Kk|]. unfold mid. unfold rbind at 1. cbn [draw bind].
      unfold rbind, rlift. unfold trunc_u32 in *. cbn [nfloor NumR] in *.
      replace (Int_part (IZR (n - 4) * x + 2)) with (k + 2)%Z; [replace (0 <=? k + 2)%Z with true by (destruct Kk; lia); replace (k + 2 <? 2 ^ 32)%Z with true by (destruct Kk; lia); reflexivity|].
      destruct Kk as [K1 K2]. pose proof (Int_part_spec (IZR (n - 4) * x + 2)) as I. clear Ek; set (y := Int_part (IZR (n - 4) * x + 2)) in *.
      assert (k + 2 < y + 1)%Z by (apply lt_IZR; rewrite !plus_IZR; lra). assert (y < k + 2 + 1)%Z by (apply lt_IZR; rewrite !plus_IZR; lra). lia. }
    set (F := fun i : Z => if (i =? 0)%Z then K 0%Z else if (i =? 1)%Z then K 1%Z else if (i =? 2)%Z then mid else if (i =? 3)%Z then K (n - 2)%Z else K (n - 1)%Z).
    set (p := fun i : Z => if (i =? 0)%Z then q 0%Z else if (i =? 1)%Z then q 1%Z else if (i =? 2)%Z then sum_of (n - 4) (fun k => q (k + 2)%Z) / IZR (n - 4) else if (i =? 3)%Z then q (n - 2)%Z else q (n - 1)%Z).
    set (w := fun i : Z => if (i =? 0)%Z then c else if (i =? 1)%Z then 4 * c else if (i =? 2)%Z then 1 - 10 * c else if (i =? 3)%Z then 4 * c else if (i =? 4)%Z then c else 0).
    eapply law_val; [|apply (law_weighted (rbind (dce_index d) K) 5 w F B p)].
    + change (sum_to 5 (fun k => w k * p k)) with (0 + c * q 0%Z + 4 * c * q 1%Z + (1 - 10 * c) * (sum_of (n - 4) (fun k => q (k + 2)%Z) / IZR (n - 4)) + 4 * c * q (n - 2)%Z + c * q (n - 1)%Z).
      unfold sum_of. replace (Z.to_nat n) with (S (S (S (S (Z.to_nat (n - 4)))))) by lia. rewrite sum_to_S, sum_to_S. cbn [sum_to].
      rewrite (sum_to_ext (fun k => energy_weight true n (k + 1 + 1)%Z * q (k + 1 + 1)%Z) (fun k => 10 * c * q (k + 2)%Z)).
      2:{ intros k Hk. cbv beta. unfold energy_weight. replace (k + 1 + 1)%Z with (k + 2)%Z by lia. destruct (Z.eqb_spec (k + 2) 0), (Z.eqb_spec (k + 2) (n - 1)), (Z.eqb_spec (k + 2) 1), (Z.eqb_spec (k + 2) (n - 2)); try lia. cbn [orb]. unfold c, unit_prob. field. lra. }
      rewrite sum_to_scal. replace (Z.of_nat (Z.to_nat (n - 4)) + 1 + 1)%Z with (n - 2)%Z by lia. replace (Z.of_nat (S (Z.to_nat (n - 4))) + 1 + 1)%Z with (n - 1)%Z by lia.
      assert (E0 : energy_weight true n 0 = c) by (unfold energy_weight; cbn; unfold c, unit_prob; reflexivity).
      assert (E1 : energy_weight true n (0 + 1) = 4 * c) by (unfold energy_weight; destruct (Z.eqb_spec (0 + 1) 0), (Z.eqb_spec (0 + 1) (n - 1)), (Z.eqb_spec (0 + 1) 1); try lia; cbn [orb]; unfold c, unit_prob; field; lra).
      assert (E2 : energy_weight true n (n - 2) = 4 * c) by (unfold energy_weight; destruct (Z.eqb_spec (n - 2) 0), (Z.eqb_spec (n - 2) (n - 1)), (Z.eqb_spec (n - 2) 1), (Z.eqb_spec (n - 2) (n - 2)); try lia; cbn [orb]; unfold c, unit_prob; field; lra).
      assert (E3 : energy_weight true n (n - 1) = c) by (unfold energy_weight; destruct (Z.eqb_spec (n - 1) 0), (Z.eqb_spec (n - 1) (n - 1)); try lia; cbn [orb]; unfold c, unit_prob; reflexivity).
      rewrite E0, E1, E2, E3. change (0 + 1)%Z with 1%Z. replace (1 - 10 * c) with (10 * (IZR n - 4) * c) by lra. rewrite W'. field. lra.
    + intros v r. unfold rbind at 1, dce_index. rewrite Q. cbn. discriminate.
    + intros k. unfold w. repeat match goal with |- context [(?a =? ?b)%Z] => destruct (Z.eqb_spec a b) end; lra.
    + cbn. lra.
    + lia.
    + intros x ds Hx O. assert (R : rbind (dce_index d) K (x :: ds) = if Rlt_dec x c then K 0%Z ds else if Rlt_dec x (5 * c) then K 1%Z ds else if Rlt_dec x (1 - 5 * c) then mid ds else if Rlt_dec x (1 - c) then K (n - 2)%Z ds else K (n - 1)%Z ds).
      { unfold dce_index. rewrite Q. cbn [negb]. fold n. unfold rbind at 1 2. cbn [draw bind]. rch. fold (unit_prob n). fold c. cbv zeta.
        destruct (Rleb_spec (5 * c) x) as [I|I]; cbn [andb]; [destruct (Rltb_spec x (1 - 5 * c)) as [J|J]; cbn [andb]|].
        - destruct (Rlt_dec x c); [lra|]. destruct (Rlt_dec x (5 * c)); [lra|]. destruct (Rlt_dec x (1 - 5 * c)); [|lra]. rewrite W by lia. unfold mid. destruct ds as [|y ds]; [reflexivity|]. unfold rbind, rlift. cbn [draw bind]. rch. change (@nlit R NumR 2 1) with 2. match goal with |- context [@trunc_u32 R NumR ?u] => destruct (@trunc_u32 R NumR u) end; reflexivity.
        - destruct (Rlt_dec x c); [lra|]. destruct (Rlt_dec x (5 * c)); [lra|]. destruct (Rlt_dec x (1 - 5 * c)); [lra|]. destruct (Rltb_spec x c); [lra|]. destruct (Rleb_spec c x); [|lra]. cbn [andb]. destruct (Rltb_spec x (5 * c)); [lra|]. destruct (Rleb_spec (1 - 5 * c) x); [|lra]. cbn [andb].
          destruct (Rltb_spec x (1 - c)), (Rlt_dec x (1 - c)); try lra; rewrite W by lia; reflexivity.
        - destruct (Rltb_spec x c), (Rlt_dec x c); try lra; [reflexivity|]. destruct (Rleb_spec c x); [|lra]. cbn [andb]. destruct (Rltb_spec x (5 * c)), (Rlt_dec x (5 * c)); try lra. reflexivity. }
      rewrite R. clear R. destruct (Rlt_dec x c); [exists 0%Z|destruct (Rlt_dec x (5 * c)); [exists 1%Z|destruct (Rlt_dec x (1 - 5 * c)); [exists 2%Z|destruct (Rlt_dec x (1 - c)); [exists 3%Z|exists 4%Z]]]]; (split; [lia|split; [|reflexivity]]); cbn; unfold Pos.to_nat; cbn; lra.
    + intros k Hk. assert (k = 0 \/ k = 1 \/ k = 2 \/ k = 3 \/ k = 4)%Z as [-> | [-> | [-> | [-> | ->]]]] by lia; cbn -[Z.sub]; try (apply H; lia). exact Lm.
  - eapply law_val; [|apply (law_uniform (rbind (dce_index d) K) (d_noe d) K B q)].
    + pose proof (vd_noe _ V) as N32. assert (0 < IZR (d_noe d)) by (apply IZR_lt; lia). unfold sum_of, energy_weight. rewrite sum_to_scal. field. lra.
    + intros v r. unfold rbind at 1, dce_index. rewrite Q. cbn. discriminate.
    + apply (vd_noe _ V).
    + intros x ds Hx O. destruct (dce_index_equi d x ds V Q ltac:(lra)) as (j & Ej & J). exists j. split; [exact J|]. unfold rbind. rewrite Ej. reflexivity.
    + exact H.
Qed.
Lemma dce_law d E i1 i2 f (B : R * R -> Prop) (dec : forall v, {B v} + {~ B v}) : valid_dce d -> neighbours (d_in d) E i1 i2 f ->
  law (dce_sample d E) B (sum_of (d_nmu d) (fun k => sum_of (d_noe d) (fun j => energy_weight (d_skewed d) (d_noe d) j *
    one_if (dec (mix f (dce_cos d i1 j k) (dce_cos d i2 j k), mix f (dce_energy d i1 j) (dce_energy d i2 j))))) / IZR (d_nmu d)).
Proof.
  intros V NB. set (L := fun k j : Z => (rlet! it := rlift (lower_bound (d_in d) E) in
    if (it =? 0)%Z then rlet! row := rlift (frontR (d_out d)) in rlift (dce_at row j k)
    else if (it =? sizeZ (d_in d))%Z then rlet! row := rlift (backR (d_out d)) in rlift (dce_at row j k)
    else
      let i := (it - 1)%Z in
      rlet! e1 := rlift (atZ (d_in d) i) in
      rlet! e2 := rlift (atZ (d_in d) (i + 1)%Z) in
      let f := ((E - e1) / (e2 - e1)) in
      rlet! row1 := rlift (atZ (d_out d) i) in
      rlet! row2 := rlift (atZ (d_out d) (i + 1)%Z) in
      rlet! p1 := rlift (dce_at row1 j k) in
      rlet! p2 := rlift (dce_at row2 j k) in
      let Eo := (snd p1 + f * (snd p2 - snd p1)) in
      let mu := (fst p1 + f * (fst p2 - fst p1)) in
      rret (clamp_mu mu, Eo)) : rand R (R * R)).
  apply (law_uniform (dce_sample d E) (d_nmu d) (fun k => rbind (dce_index d) (L k))).
  - intros v r. unfold dce_sample, rbind at 1. cbn. discriminate.
  - apply (vd_nmu _ V).
  - intros x ds Hx O. destruct (trunc_bin (d_nmu d) x (vd_nmu _ V) ltac:(lra)) as (k & Ek & K). exists k. split; [exact K|]. unfold dce_sample. unfold rbind at 1. cbn [draw bind]. unfold rbind at 1. rch. rewrite Ek. cbn [rlift bind]. reflexivity.
  - intros k Hk. apply law_index; [exact V|]. intros j Hj. apply law_value. intros ds _. destruct (dce_after d E j k ds V Hj Hk) as (j1 & j2 & g & mu & NB' & -> & _ & _ & R).
    rewrite (neighbours_mix _ _ _ _ _ _ _ _ (fun i => dce_cos d i j k) (vd_in _ V) NB NB'), (neighbours_mix _ _ _ _ _ _ _ _ (fun i => dce_energy d i j) (vd_in _ V) NB NB'). exact R.
Qed.
Lemma energy_weight_total d : valid_dce d -> sum_of (d_noe d) (energy_weight (d_skewed d) (d_noe d)) = 1.
Proof.
  intros V. pose proof (vd_noe _ V) as N32. set (n := d_noe d) in *. destruct (d_skewed d) eqn:Q.
  - pose proof (vd_six _ V Q) as N6. fold n in N6. pose proof (unit_prob_pos _ N6) as (P1 & P2 & P3). set (c := unit_prob n) in *. assert (N6' : 6 <= IZR n) by (apply IZR_le; exact N6).
    unfold sum_of. replace (Z.to_nat n) with (S (S (S (S (Z.to_nat (n - 4)))))) by lia. rewrite sum_to_S, sum_to_S. cbn [sum_to].
    rewrite (sum_to_ext (fun k => energy_weight true n (k + 1 + 1)%Z) (fun k => 10 * c)).
    2:{ intros k Hk. cbv beta. unfold energy_weight. destruct (Z.eqb_spec (k + 1 + 1) 0), (Z.eqb_spec (k + 1 + 1) (n - 1)), (Z.eqb_spec (k + 1 + 1) 1), (Z.eqb_spec (k + 1 + 1) (n - 2)); try lia. cbn [orb]. unfold c, unit_prob. field. lra. }
    rewrite sum_to_const, INR_IZR_INZ, Z2Nat.id by lia. replace (n - 4 + 1 + 1)%Z with (n - 2)%Z by lia. replace (Z.of_nat (S (Z.to_nat (n - 4))) + 1 + 1)%Z with (n - 1)%Z by lia.
    assert (E0 : energy_weight true n 0 = c) by (unfold energy_weight; cbn; unfold c, unit_prob; reflexivity).
    assert (E1 : energy_weight true n (0 + 1) = 4 * c) by (unfold energy_weight; destruct (Z.eqb_spec (0 + 1) 0), (Z.eqb_spec (0 + 1) (n - 1)), (Z.eqb_spec (0 + 1) 1); try lia; cbn [orb]; unfold c, unit_prob; field; lra).
    assert (E2 : energy_weight true n (n - 2) = 4 * c) by (unfold energy_weight; destruct (Z.eqb_spec (n - 2) 0), (Z.eqb_spec (n - 2) (n - 1)), (Z.eqb_spec (n - 2) 1), (Z.eqb_spec (n - 2) (n - 2)); try lia; cbn [orb]; unfold c, unit_prob; field; lra).
    assert (E3 : energy_weight true n (n - 1) = c) by (unfold energy_weight; destruct (Z.eqb_spec (n - 1) 0), (Z.eqb_spec (n - 1) (n - 1)); try lia; cbn [orb]; unfold c, unit_prob; reflexivity).
    rewrite E0, E1, E2, E3, minus_IZR. lra.
  - unfold sum_of, energy_weight. rewrite sum_to_const, INR_IZR_INZ, Z2Nat.id by lia. assert (0 < IZR n) by (apply IZR_lt; lia). field. lra.
Qed.
