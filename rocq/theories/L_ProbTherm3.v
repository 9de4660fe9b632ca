(** * Laws of the thermal samplers: smeared cosines *)
From Coq Require Import Reals Lra Lia List Arith ZArith ZifyBool ZifyNat. From Coquelicot Require Import Coquelicot.
From Verif Require Import Base NumR S_Prob S_Mix S_Replay L_Search L_SearchR M_Grid M_OutE M_Thermal S_OutE S_Thermal S_ThermalLaw M_PC L_Angle L_Grid L_OutE L_Thermal L_Legendre L_Prob L_ProbEv L_ProbLaw L_ProbLoop L_ProbComp L_ProbComp3 L_Replay L_ProbPick. Import ListNotations.
Local Open Scope R_scope.

Lemma room_nonneg n row1 row2 f k : cosine_row n row1 -> cosine_row n row2 -> 0 <= f <= 1 -> (0 <= k < n)%Z -> 0 <= cosine_room row1 row2 f n k.
Proof.
  intros C1 C2 F K. pose proof (cos_at_bounds n row1 row2 f k C1 C2 F K) as B. unfold cosine_room. apply Rmin_glb.
  - destruct (Z.eqb_spec k 0); [lra|]. pose proof (cos_at_mono n row1 row2 f (k - 1) k C1 C2 F ltac:(lia) ltac:(lia)). lra.
  - destruct (Z.eqb_spec k (n - 1)); [lra|]. pose proof (cos_at_mono n row1 row2 f k (k + 1) C1 C2 F ltac:(lia) ltac:(lia)). lra.
Qed.
Lemma smear_value n row1 row2 f k z ds : (0 < n < 2 ^ 32)%Z -> sizeZ row1 = n -> sizeZ row2 = n -> (0 <= k < n)%Z ->
  smear row1 row2 f k n (z :: ds) = Ok (cos_at row1 row2 f k + cosine_room row1 row2 f n k * (z - 1 / 2), ds).
Proof.
  intros Hn S1 S2 K. unfold smear. rewrite lerp_R by lia. unfold rbind at 1. cbn [rlift bind]. unfold cosine_room. cbv zeta. set (m := cos_at row1 row2 f k) in *.
  replace (wrap32 (n - 1)) with (n - 1)%Z by (unfold wrap32; rewrite Z.mod_small; lia).
  pose (lo := if (k =? 0)%Z then -1 - (m + 1) else cos_at row1 row2 f (k - 1)). pose (hi := if (k =? n - 1)%Z then 1 - (m - 1) else cos_at row1 row2 f (k + 1)).
  assert (LO : (if (k =? 0)%Z then Ok ((- (1) - (m + 1))) else lerp_at row1 row2 f (k - 1)%Z) = Ok lo).
  { unfold lo. destruct (Z.eqb_spec k 0); [reflexivity|]. apply lerp_R; lia. }
  assert (HI : (if (k =? n - 1)%Z then Ok ((1 - (m - 1))) else lerp_at row1 row2 f (k + 1)%Z) = Ok hi).
  { unfold hi. destruct (Z.eqb_spec k (n - 1)); [reflexivity|]. apply lerp_R; lia. }
  rch. rewrite LO. unfold rbind at 1. cbn [rlift bind]. rewrite HI. unfold rbind at 1. cbn [rlift bind]. unfold rbind, draw, rret.
  unfold nlit. rch. unfold nmin. rch.
  assert (E1 : (if (k =? 0)%Z then 2 * (m + 1) else m - cos_at row1 row2 f (k - 1)) = m - lo) by (unfold lo; destruct (k =? 0)%Z; [lra|reflexivity]).
  assert (E2 : (if (k =? n - 1)%Z then 2 * (1 - m) else cos_at row1 row2 f (k + 1) - m) = hi - m) by (unfold hi; destruct (k =? n - 1)%Z; [lra|reflexivity]).
  rewrite E1, E2. f_equal. f_equal. f_equal. f_equal.
  destruct (Rltb_spec (hi - m) (m - lo)); [rewrite Rmin_right|rewrite Rmin_left]; lra.
Qed.
Lemma law_uniform_below (s : rand R R) m w c : 0 <= w -> asks s -> (forall z ds, 0 < z < 1 -> s (z :: ds) = Ok (m + w * (z - 1 / 2), ds)) -> law s (fun v => v <= c) (uniform_below m w c).
Proof.
  intros Hw As H. assert (Hs : forall ds, open01 ds -> forall v r, s ds = Ok (v, r) <-> exists z, draw ds = Ok (z, r) /\ v = m + w * (z - 1 / 2)).
  { intros ds O v r. destruct ds as [|z ds].
    - split; [intros E; destruct (As _ _ E)|intros (z & E & _); discriminate].
    - inversion O; subst. rewrite (H z ds) by assumption. cbn. split; [intros E; injection E as <- <-; exists z; split; reflexivity|intros (y & E & ->); injection E as <- <-; reflexivity]. }
  unfold uniform_below. destruct (Rle_dec w 0) as [L|L].
  - assert (w = 0) as -> by lra. eapply law_map; [intros ds v r O; apply (Hs ds O v r)|]. apply (law_ext01 (@draw R) (fun _ => m <= c)); [intros v ds r _ _; replace (m + 0 * (v - 1 / 2)) with m by ring; reflexivity|].
    destruct (Rle_dec m c); cbn; [apply (law_ext01 (@draw R) (fun _ => True)); [intros; tauto|exact law_draw_any]|apply law_never; intros; assumption].
  - eapply law_map; [intros ds v r O; apply (Hs ds O v r)|]. set (t := (c - m) / w + 1 / 2).
    assert (T : forall v, m + w * (v - 1 / 2) <= c <-> v <= t).
    { intros v. assert (Ec : c = m + w * (t - 1 / 2)) by (unfold t; field; lra). split; intros G; [|rewrite Ec; nra]. apply Rmult_le_reg_l with w; [lra|]. rewrite Ec in G. lra. }
    destruct (Rlt_dec t 0) as [T0|T0]; [|destruct (Rlt_dec 1 t) as [T1|T1]].
    + rewrite Rmax_left, Rmin_right by lra. apply law_never. intros v ds r O E. rewrite T. unfold draw in E. destruct ds; [discriminate|]. injection E as -> ->. inversion O; subst. lra.
    + rewrite Rmax_right, Rmin_left by lra. apply (law_ext01 (@draw R) (fun _ => True)); [|exact law_draw_any]. intros v ds r O E. rewrite T. unfold draw in E. destruct ds; [discriminate|]. injection E as -> ->. inversion O; subst. split; [intros _; lra|tauto].
    + rewrite Rmax_right, Rmin_right by lra. apply (law_ext01 (@draw R) (fun v => v <= t)); [intros v ds r _ _; symmetry; apply T|apply law_draw_le; lra].
Qed.
Lemma inco_law d E : valid_inco d -> (2 <= sizeZ (ie_in d))%Z -> exists l f, bracket (ie_in d) E l f /\ 0 <= f <= 1 /\ forall c,
  law (inco_sample d E) (fun v => fst v <= c /\ snd v = E)
    (sum_of (ie_nmu d) (fun k => uniform_below (cos_at (nth (Z.to_nat l) (ie_cos d) []) (nth (Z.to_nat (l + 1)) (ie_cos d) []) f k) (cosine_room (nth (Z.to_nat l) (ie_cos d) []) (nth (Z.to_nat (l + 1)) (ie_cos d) []) f (ie_nmu d) k) c) / IZR (ie_nmu d)).
Proof.
  intros V S. destruct (select_bracket (ie_in d) E (vi_in _ V) S) as (l & f & Es & B & F). exists l, f. split; [exact B|]. split; [exact F|]. intros c. pose proof B as (B0 & B1 & _).
  assert (A1 : atZ (ie_cos d) l = Ok (nth (Z.to_nat l) (ie_cos d) [])) by (apply atZ_nth; rewrite (vi_size _ V); lia).
  assert (A2 : atZ (ie_cos d) (l + 1) = Ok (nth (Z.to_nat (l + 1)) (ie_cos d) [])) by (apply atZ_nth; rewrite (vi_size _ V); lia).
  set (r1 := nth (Z.to_nat l) (ie_cos d) []) in *. set (r2 := nth (Z.to_nat (l + 1)) (ie_cos d) []) in *. pose proof (vi_rows _ V _ (atZ_In _ _ _ A1)) as R1. pose proof (vi_rows _ V _ (atZ_In _ _ _ A2)) as R2.
  apply (law_uniform (inco_sample d E) (ie_nmu d) (fun k => rbind (smear r1 r2 f k (ie_nmu d)) (fun mu => rret (mu, E)))).
  - intros v r. unfold inco_sample. replace (sizeZ (ie_in d) =? 0)%Z with false by lia. unfold rbind at 1. rewrite Es. cbn. discriminate.
  - apply (vi_nmu _ V).
  - intros x ds Hx O. destruct (trunc_bin (ie_nmu d) x (vi_nmu _ V) ltac:(lra)) as (k & Ek & K). exists k. split; [exact K|].
    unfold inco_sample. replace (sizeZ (ie_in d) =? 0)%Z with false by lia. unfold rbind at 1. rewrite Es. cbn [rlift bind].
    unfold rbind at 1. cbn [draw]. unfold rbind at 1. rch. rewrite Ek. cbn [rlift bind]. unfold rbind at 1. rewrite A1. cbn [rlift bind]. unfold rbind at 1. rewrite A2. cbn [rlift bind]. reflexivity.
  - intros k Hk. pose proof (vi_nmu _ V) as Hn.
    assert (Q : law (smear r1 r2 f k (ie_nmu d)) (fun v => v <= c) (uniform_below (cos_at r1 r2 f k) (cosine_room r1 r2 f (ie_nmu d) k) c)).
    { apply law_uniform_below; [apply room_nonneg; assumption| |intros z ds _; apply smear_value; try assumption; [apply R1|apply R2]].
      intros v r. unfold smear. rewrite lerp_R by (rewrite ?(proj1 R1), ?(proj1 R2); lia). unfold rbind at 1. cbn [rlift bind].
      unfold rbind at 1. match goal with |- context [rlift ?u []] => destruct u; cbn [rlift bind]; try discriminate end. unfold rbind at 1. match goal with |- context [rlift ?u []] => destruct u; cbn [rlift bind]; try discriminate end. }
    eapply (law_map (smear r1 r2 f k (ie_nmu d)) _ (fun mu => (mu, E))); [|eapply law_ext; [|exact Q]; intros v ds r _; cbn; tauto].
    intros ds v r O. unfold rbind. destruct (smear r1 r2 f k (ie_nmu d) ds) as [[mu r']| | |]; cbn [bind rret]; try (split; [discriminate|intros (u & EE & _); discriminate]).
    split; [intros EE; injection EE as <- <-; exists mu; split; reflexivity|intros (u & EE & ->); injection EE as <- <-; reflexivity].
Qed.
