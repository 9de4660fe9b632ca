(** * Elastic scattering off a target at rest: laws of the energy and of the cosine *)
From Coq Require Import Reals Lra Lia List ZifyBool ZifyNat. From Coquelicot Require Import Coquelicot.
From Verif Require Import Base NumR M_Kin S_Kin L_Search L_Kin L_KinE S_Prob L_Legendre L_Prob L_ProbEv L_ProbLaw L_ProbLoop S_Replay L_Replay L_ProbComp L_ProbComp3 S_ElasticLaw.
Import ListNotations.
Local Open Scope R_scope.
Local Notation iR := (@is_RInt R_NormedModule).

Section Tar.
Context (e : elastic_obj R) (E : R).
Hypothesis (V : elastic_valid e) (HE : 0 < E) (Hc : forall ds m r, open01 ds -> e_angle e E ds = Ok (m, r) -> -1 <= m <= 1) (Hr : replayable (e_angle e E)) (Hu : e_use_tar e = true) (Ht : e_tar e * e_kT e <= E).
Let A := e_awr e.
Lemma tar_pair ds w r : open01 ds -> (elastic_sample e E ds = Ok (w, r) <-> exists v, both (e_angle e E) draw (fun m xi => (m, xi)) ds = Ok (v, r) /\ w = @elastic_out R NumR E A (mkVec 0 0 0) (fst v) (2 * PI * snd v)).
Proof.
  intros _. assert (X : (e_use_tar e && @nleb R NumR (@nmul R NumR (e_tar e) (e_kT e)) E)%bool = true).
  { rewrite Hu. cbn [andb]. change (@nleb R NumR) with Rleb. apply Rleb_true. exact Ht. }
  unfold elastic_sample. rewrite X. cbv zeta. cbv iota. unfold rbind at 1, rret at 1. unfold both, rbind, rret. destruct (e_angle e E ds) as [[m d]| | |]; [|split; [discriminate|intros (v & ? & _); discriminate]..].
  destruct (draw d) as [[xi d2]| | |]; [|split; [discriminate|intros (v & ? & _); discriminate]..]. split.
  - intros H. exists (m, xi). cbn [fst snd]. assert (d2 = r) as <- by congruence. split; [reflexivity|]. assert (Q : forall a b : R * R, Ok (a, d2) = Ok (b, d2) -> a = b) by (intros; congruence). symmetry. apply Q. exact H.
  - intros (v & H & ->). assert ((m, xi) = v /\ d2 = r) as [<- <-] by (split; congruence). reflexivity.
Qed.
Definition occurs (m : R) : Prop := exists ds r, open01 ds /\ e_angle e E ds = Ok (m, r).
Lemma tar_law (B : R -> Prop) (C : R * R -> Prop) q : (forall m phi, occurs m -> -1 <= m <= 1 -> (C (@elastic_out R NumR E A (mkVec 0 0 0) m phi) <-> B m)) -> law (e_angle e E) B q -> law (elastic_sample e E) C q.
Proof.
  intros H L. eapply law_map; [exact tar_pair|]. eapply law_ext01.
  2: { eapply law_val; [|apply (law_both (e_angle e E) draw (fun m xi => (m, xi)) B (fun _ => True) (fun v => B (fst v)) q 1 Hr (@rp_draw1))]; [ring|intros; cbn; tauto|exact L|exact law_draw_any]. }
  intros v ds r O X. cbv beta. apply both_ok in X as (m & xi & d & X & _ & ->). cbn [fst snd]. symmetry. apply H; [exists ds, d; split; assumption|]. exact (Hc _ _ _ O X).
Qed.
Lemma lift_law (pr : R * R -> R) (B C : R -> Prop) q (s' : rand R R) : (forall ds, s' ds = match elastic_sample e E ds with Ok (p, r) => Ok (pr p, r) | Throw => Throw | UB => UB | NoDraw => NoDraw end) ->
  (forall m phi, occurs m -> -1 <= m <= 1 -> (C (pr (@elastic_out R NumR E A (mkVec 0 0 0) m phi)) <-> B m)) -> law (e_angle e E) B q -> law s' C q.
Proof.
  intros Hs H L. apply (law_map (elastic_sample e E) s' pr); [|exact (tar_law B (fun v => C (pr v)) q H L)]. intros ds w r _. rewrite Hs. destruct (elastic_sample e E ds) as [[p d]| | |].
  - split; [intros X; exists p; split; congruence|intros (v & X & ->); congruence].
  - split; [discriminate|intros (v & X & _); discriminate].
  - split; [discriminate|intros (v & X & _); discriminate].
  - split; [discriminate|intros (v & X & _); discriminate].
Qed.
Lemma rest_energy m phi : -1 <= m <= 1 -> snd (@elastic_out R NumR E A (mkVec 0 0 0) m phi) = E * (1 + 2 * A * m + A * A) / ((1 + A) * (1 + A)).
Proof. intros Hm. destruct (@elastic_out R NumR E A (mkVec 0 0 0) m phi) as [mu Eo] eqn:O. destruct V as (HA & _). exact (proj1 (elastic_tar E A m phi mu Eo HE HA Hm O)). Qed.
Lemma kept_lt : kept A < 1.
Proof. destruct V as (HA & _). fold A in HA. unfold kept. assert (X : (A - 1) / (A + 1) * ((A - 1) / (A + 1)) = 1 - 4 * A / ((A + 1) * (A + 1))) by (field; lra). rewrite X. assert (0 < 4 * A / ((A + 1) * (A + 1))) by (apply Rdiv_lt_0_compat; nra). lra. Qed.
Lemma energy_law (f : R -> R) : has_density (e_angle e E) (-1) 1 f ->
  has_density (energy_of (elastic_sample e E)) (kept A * E) E (fun x => 2 / ((1 - kept A) * E) * f (1 - 2 * (E - x) / ((1 - kept A) * E))).
Proof.
  intros [D1 D2]. pose proof kept_lt as K. destruct V as (HA & _). fold A in HA. set (k := 2 / ((1 - kept A) * E)). assert (KE : 0 < (1 - kept A) * E) by nra. assert (Pk : 0 < k) by (apply Rdiv_lt_0_compat; lra).
  assert (EV : forall m, E * (1 + 2 * A * m + A * A) / ((1 + A) * (1 + A)) = E + (m - 1) / k).
  { intros m. assert (X : / k = 2 * A * E / ((1 + A) * (1 + A))). { unfold k, kept. field. split; [lra|]. split; [|lra]. assert ((A + 1) * (A + 1) - (A - 1) * (A - 1) = 4 * A) by ring. nra. } unfold Rdiv at 2. rewrite X. field. lra. }
  assert (Low : kept A * E = E + (-1 - 1) / k). { unfold k. field. lra. }
  assert (Ik : 0 < / k) by (apply Rinv_0_lt_compat, Pk). assert (kk : k * / k = 1) by (apply Rinv_r; lra).
  split.
  - apply (lift_law snd (fun m => -1 <= m <= 1) _ 1); [reflexivity| |exact D1]. intros m phi _ Hm. rewrite rest_energy, EV, Low by exact Hm. unfold Rdiv. split; [tauto|]. intros _. split; nra.
  - intros x Hx. assert (B : -1 <= 1 - k * (E - x) <= 1). { split; [|nra]. assert (k * (E - x) <= k * (- ((-1 - 1) / k))) by (apply Rmult_le_compat_l; lra). unfold Rdiv in *. nra. }
    destruct (D2 _ B) as (q & L & I). exists q. split.
    + apply (lift_law snd (fun m => m <= 1 - k * (E - x)) _ q); [reflexivity| |exact L]. intros m phi _ Hm. rewrite rest_energy, EV by exact Hm. unfold Rdiv. split; intros H.
      * assert (k * (E + (m - 1) * / k) <= k * x) by (apply Rmult_le_compat_l; lra). nra.
      * apply (Rmult_le_reg_l k); [lra|]. nra.
    + apply (iR_ext (fun y => k * f (k * y + (1 - k * E)))); [rewrite Low in *; lra| |].
      * intros y _. f_equal. f_equal. unfold k. field. lra.
      * apply (@is_RInt_comp_lin R_NormedModule f k (1 - k * E) (kept A * E) x q). replace (k * (kept A * E) + (1 - k * E)) with (-1); [|rewrite Low; unfold Rdiv; nra]. replace (k * x + (1 - k * E)) with (1 - k * (E - x)) by ring. exact I.
Qed.
(** ** the cosine, for a target heavier than the neutron *)
Definition cm_cosine (A c : R) : R := (c * c - 1 + c * sqrt (A * A - 1 + c * c)) / A.
Lemma cosine_iff c m phi : 1 < A -> -1 <= c <= 1 -> -1 <= m <= 1 -> (fst (@elastic_out R NumR E A (mkVec 0 0 0) m phi) <= c <-> m <= cm_cosine A c).
Proof.
  intros HA Hcc Hm. destruct (@elastic_out R NumR E A (mkVec 0 0 0) m phi) as [mu Eo] eqn:O. cbn [fst]. destruct (elastic_tar E A m phi mu Eo HE ltac:(lra) Hm O) as (_ & _ & H).
  assert (P : 0 < 1 + 2 * A * m + A * A) by nra. destruct (H P) as (H1 & H2). clear H O. set (s := sqrt (1 + 2 * A * m + A * A)) in *. assert (Ps : 0 < s) by (apply sqrt_lt_R0, P). assert (Ss : s * s = 1 + 2 * A * m + A * A) by (apply sqrt_sqrt; lra).
  unfold cm_cosine. set (w := sqrt (A * A - 1 + c * c)). assert (Pw : 0 < w) by (apply sqrt_lt_R0; nra). assert (Sw : w * w = A * A - 1 + c * c) by (apply sqrt_sqrt; nra).
  assert (- w < c < w). { split; [destruct (Rlt_le_dec (- w) c) as [|Q]; [assumption|exfalso; nra]|destruct (Rlt_le_dec c w) as [|Q]; [assumption|exfalso; nra]]. }
  assert (X : mu <= c <-> s <= c + w).
  { assert (Y : mu * s = (s * s + 1 - A * A) / 2) by lra. split; intros Q.
    - assert (mu * s <= c * s) by nra. destruct (Rle_lt_dec s (c + w)); [assumption|]. assert (0 < (s - c - w) * (s - c + w)) by (apply Rmult_lt_0_compat; lra). nra.
    - apply (Rmult_le_reg_r s); [exact Ps|]. assert (0 <= (c + w - s) * (s - c + w)) by (apply Rmult_le_pos; lra). nra. }
  rewrite X. split; intros Q.
  - apply (Rmult_le_reg_l A); [lra|]. replace (A * ((c * c - 1 + c * w) / A)) with (c * c - 1 + c * w) by (field; lra). assert (s * s <= (c + w) * (c + w)) by nra. nra.
  - apply (Rmult_le_compat_l A) in Q; [|lra]. replace (A * ((c * c - 1 + c * w) / A)) with (c * c - 1 + c * w) in Q by (field; lra). assert (s * s <= (c + w) * (c + w)) by nra. destruct (Rle_lt_dec s (c + w)); [assumption|]. nra.
Qed.
Lemma cm_cosine_range c : 1 < A -> -1 <= c <= 1 -> -1 <= cm_cosine A c <= 1.
Proof.
  intros HA Hcc. unfold cm_cosine. set (w := sqrt (A * A - 1 + c * c)). assert (Pw : 0 < w) by (apply sqrt_lt_R0; nra). assert (Sw : w * w = A * A - 1 + c * c) by (apply sqrt_sqrt; nra). assert (w <= A) by nra.
  assert (A - 1 <= w + c). { destruct (Rle_lt_dec (A - 1 - c) w); [lra|]. assert (w * w < (A - 1 - c) * (A - 1 - c)) by nra. nra. }
  assert (N : c * c - 1 + c * w = ((c + w) * (c + w) - 1 - A * A) / 2) by nra.
  rewrite N. split.
  - apply (Rmult_le_reg_l A); [lra|]. replace (A * (((c + w) * (c + w) - 1 - A * A) / 2 / A)) with (((c + w) * (c + w) - 1 - A * A) / 2) by (field; lra). nra.
  - apply (Rmult_le_reg_l A); [lra|]. replace (A * (((c + w) * (c + w) - 1 - A * A) / 2 / A)) with (((c + w) * (c + w) - 1 - A * A) / 2) by (field; lra). nra.
Qed.
Lemma cosine_law_rest c q : 1 < A -> -1 <= c <= 1 -> law (e_angle e E) (fun m => m <= cm_cosine A c) q -> law (cosine_of (elastic_sample e E)) (fun v => v <= c) q.
Proof. intros HA Hcc L. apply (lift_law fst (fun m => m <= cm_cosine A c) _ q); [reflexivity| |exact L]. intros m phi _ Hm. apply cosine_iff; assumption. Qed.
Lemma cosine_range_rest : 1 < A -> law (e_angle e E) (fun m => -1 <= m <= 1) 1 -> law (cosine_of (elastic_sample e E)) (fun v => -1 <= v <= 1) 1.
Proof.
  intros HA L. apply (lift_law fst (fun m => -1 <= m <= 1) _ 1); [reflexivity| |exact L]. intros m phi _ Hm. split; [tauto|intros _].
  destruct (@elastic_out R NumR E A (mkVec 0 0 0) m phi) as [mu Eo] eqn:O. destruct (elastic_tar E A m phi mu Eo HE ltac:(lra) Hm O) as (_ & _ & H). apply H. nra.
Qed.
(** a target as heavy as the neutron *)
Lemma hydrogen m phi : A = 1 -> -1 < m <= 1 -> fst (@elastic_out R NumR E A (mkVec 0 0 0) m phi) = sqrt ((1 + m) / 2).
Proof.
  intros HA Hm. destruct (@elastic_out R NumR E A (mkVec 0 0 0) m phi) as [mu Eo] eqn:O. cbn [fst]. destruct (elastic_tar E A m phi mu Eo HE ltac:(lra) ltac:(lra) O) as (_ & _ & H). rewrite HA in H.
  destruct (H ltac:(lra)) as [H1 _]. replace (1 + 2 * 1 * m + 1 * 1) with (4 * ((1 + m) / 2)) in H1 by field. rewrite sqrt_mult in H1 by lra. replace 4 with (2 * 2) in H1 by ring. rewrite sqrt_square in H1 by lra.
  set (t := sqrt ((1 + m) / 2)) in *. assert (0 < t) by (apply sqrt_lt_R0; lra). assert (t * t = (1 + m) / 2) by (apply sqrt_sqrt; lra). apply (Rmult_eq_reg_r t); [|lra]. lra.
Qed.
Lemma cosine_hydrogen : A = 1 -> (forall m, occurs m -> -1 < m) -> law (e_angle e E) (fun m => -1 <= m <= 1) 1 -> (forall c, 0 <= c <= 1 -> law (e_angle e E) (fun m => m <= 2 * (c * c) - 1) (c * c)) ->
  has_density (cosine_of (elastic_sample e E)) 0 1 (fun c => 2 * c).
Proof.
  intros HA Hm D1 D2. split.
  - apply (lift_law fst (fun m => -1 <= m <= 1) _ 1); [reflexivity| |exact D1]. intros m phi O Q. specialize (Hm m O). rewrite hydrogen by (assumption || lra). split; [tauto|intros _]. split; [apply sqrt_pos|]. rewrite <- sqrt_1 at 2. apply sqrt_le_1; lra.
  - intros c Hcc. exists (c * c). split.
    + apply (lift_law fst (fun m => m <= 2 * (c * c) - 1) _ (c * c)); [reflexivity| |apply D2, Hcc]. intros m phi O Q. specialize (Hm m O). rewrite hydrogen by (assumption || lra).
      set (t := sqrt ((1 + m) / 2)) in *. assert (0 <= t) by (apply sqrt_pos). assert (t * t = (1 + m) / 2) by (apply sqrt_sqrt; lra). split; intros; nra.
    + eapply iR_eq; [|apply (is_RInt_derive (fun c => c * c)); intros x Hx]; [unfold minus, plus, opp; cbn; ring|auto_derive; [trivial|ring]|apply (@ex_derive_continuous R_AbsRing R_NormedModule); auto_derive; trivial].
Qed.
End Tar.
Lemma cm_derive A c : 1 < A -> -1 <= c <= 1 -> is_derive (fun c => (cm_cosine A c + 1) / 2) c ((c + sqrt (A * A - 1 + c * c)) * (c + sqrt (A * A - 1 + c * c)) / (2 * A * sqrt (A * A - 1 + c * c))).
Proof.
  intros HA Hc. unfold cm_cosine. assert (P : 0 < A * A - 1 + c * c) by nra. pose proof (sqrt_lt_R0 _ P) as Pw. pose proof (sqrt_sqrt _ (Rlt_le _ _ P)) as Sw. auto_derive; [tauto|]. set (w := sqrt (A * A - 1 + c * c)) in *.
  field. split; lra.
Qed.
Lemma isotropic_cosine (e : elastic_obj R) E : elastic_valid e -> 0 < E -> (forall ds m r, open01 ds -> e_angle e E ds = Ok (m, r) -> -1 <= m <= 1) -> replayable (e_angle e E) -> e_use_tar e = true -> e_tar e * e_kT e <= E -> 1 < e_awr e ->
  has_density (e_angle e E) (-1) 1 (fun _ => 1 / 2) -> let A := e_awr e in
  has_density (cosine_of (elastic_sample e E)) (-1) 1 (fun c => (c + sqrt (A * A - 1 + c * c)) * (c + sqrt (A * A - 1 + c * c)) / (2 * A * sqrt (A * A - 1 + c * c))).
Proof.
  intros V HE Hc Hr Hu Ht HA [D1 D2] A. split; [apply cosine_range_rest; assumption|]. intros c Hcc. exists ((cm_cosine A c + 1) / 2). split.
  - apply cosine_law_rest; try assumption. destruct (D2 _ (cm_cosine_range e c HA Hcc)) as (q & L & I). eapply law_val; [|exact L].
    assert (J : iR (fun _ => 1 / 2) (-1) (cm_cosine A c) ((cm_cosine A c - -1) * (1/2))) by (exact (@is_RInt_const R_NormedModule (-1) (cm_cosine A c) (1/2))).
    pose proof (@is_RInt_unique R_CompleteNormedModule _ _ _ _ I) as X. pose proof (@is_RInt_unique R_CompleteNormedModule _ _ _ _ J) as Y. fold A in X. rewrite X in Y. rewrite Y. lra.
  - eapply iR_eq; [|apply (is_RInt_derive (fun c => (cm_cosine A c + 1) / 2)); intros x Hx; rewrite Rmin_left, Rmax_right in Hx by lra].
    + unfold minus, plus, opp; cbn. unfold cm_cosine at 2. replace (A * A - 1 + -1 * -1) with (A * A) by ring. rewrite sqrt_square by (fold A in HA; lra). field. fold A in HA; lra.
    + apply cm_derive; [exact HA|lra].
    + fold A in HA. assert (P : 0 < A * A - 1 + x * x) by nra. apply (@ex_derive_continuous R_AbsRing R_NormedModule). auto_derive. pose proof (sqrt_lt_R0 _ P). repeat split; try assumption. apply Rgt_not_eq. nra.
Qed.
