(** * Joint laws of tables of energies with a cosine that depends on the energy *)
From Coq Require Import Reals Lra Lia List Arith ZifyBool ZifyNat. From Coquelicot Require Import Coquelicot.
From Verif Require Import Base NumR M_Interp M_PC S_PC M_OutE S_OutE L_Search L_SearchR L_PC L_PCR L_Interp2 L_Legendre L_Angle L_OutE L_OutE3 L_OutE4 S_Prob L_Prob L_ProbEv L_ProbLaw L_ProbAngle L_ProbDbrc S_JointLaw L_ProbJoint. Import ListNotations.
Local Open Scope R_scope.
Local Notation iR := (@is_RInt R_NormedModule).

Definition tphi (t : pctable R) (x : R) : R := match pc_sample t x with Ok v => v | _ => 0 end.
Section Table.
Variable t : pctable R.
Hypothesis V : valid_pc t.
Let v := getR (pc_values t). Let p := getR (pc_pdfs t). Let c := getR (pc_cdf t). Let n := sizeZ (pc_values t).
Let a := first_of (pc_values t). Let b := last_of (pc_values t). Let f := tdens t.
Lemma t_sizes : sizeZ (pc_pdfs t) = n /\ sizeZ (pc_cdf t) = n /\ (1 <= n)%Z.
Proof. destruct V. unfold n, sizeZ in *. split; [congruence|]. split; [congruence|assumption]. Qed.
Lemma t_inc i j : (0 <= i)%Z -> (i <= j)%Z -> (j < n)%Z -> v i <= v j.
Proof. intros. apply (vt_values _ _ _ _ V); fold n; lia. Qed.
Lemma t_ab : a <= b. Proof. left. exact (valid_wide _ _ _ _ V). Qed.
Lemma t_nn x : 0 <= f x. Proof. apply (dens_nonneg _ _ _ _ V). Qed.
Lemma t_cum k : (0 <= k < n)%Z -> iR f a (v k) (c k).
Proof. intros Hk. exact (integral_from_0 _ _ _ _ V k Hk). Qed.
Lemma t_one : iR f a b 1.
Proof. pose proof t_sizes. replace 1 with (c (n - 1)%Z); [apply t_cum; lia|]. unfold c. destruct V. replace n with (sizeZ (pc_cdf t)) by lia. assumption. Qed.
Lemma t_phi x : 0 < x < 1 -> pc_sample t x = Ok (tphi t x) /\ (a <= tphi t x <= b /\ iR f a (tphi t x) x).
Proof.
  intros Hx. destruct (sample_spec (pc_values t) (pc_pdfs t) (pc_cdf t) (pc_interp t) V x ltac:(lra)) as (y & k & S & I & K1 & K2 & K3 & K4). assert (Et : tbl (pc_values t) (pc_pdfs t) (pc_cdf t) (pc_interp t) = t) by (destruct t; reflexivity). rewrite Et in S. unfold tphi. rewrite S. split; [reflexivity|]. split; [|exact I].
  fold v n in K2, K4. pose proof (t_inc 0 k ltac:(lia) ltac:(lia) ltac:(lia)). pose proof (t_inc (k + 1) (n - 1) ltac:(lia) ltac:(lia) ltac:(lia)). unfold a, b, first_of, last_of. fold v n. lra.
Qed.
Lemma t_phi2 x : 0 < x < 1 -> a <= tphi t x <= b /\ iR f a (tphi t x) x. Proof. intros Hx. apply (t_phi x Hx). Qed.
(** the density on a segment *)
Definition line (k : Z) (h : R) : R := match pc_interp t with Histogram => p k | _ => p k + (h - v k) * ((p (k + 1)%Z - p k) / (v (k + 1)%Z - v k)) end.
Lemma line_cont k h : continuous (line k) h.
Proof. unfold line. destruct (pc_interp t); try (apply (@ex_derive_continuous R_AbsRing R_NormedModule); auto_derive; exact I). Qed.
Lemma line_dens k h : between (pc_values t) k h -> f h = line k h.
Proof.
  intros (H1 & H2 & H3). unfold f, tdens. rewrite (dens_open _ _ _ _ V k h H1 H2 H3). unfold seg, line. destruct (vt_interp _ _ _ _ V) as [E|E]; rewrite E; cbn [interpolate]; [reflexivity|]. unfold linlin_interpolate. rnum. fold v p. fold v in H3. unfold Rdiv. ring.
Qed.
Lemma line_pos k h : between (pc_values t) k h -> c k < c (k + 1)%Z -> 0 < line k h.
Proof.
  intros (H1 & H2 & H3) Hc. fold v in H3. assert (A : c (k + 1)%Z - c k = seg_area (pc_interp t) (v k) (p k) (v (k + 1)%Z) (p (k + 1)%Z)) by (apply (vt_area _ _ _ _ V); assumption).
  assert (P1 : 0 <= p k) by (apply getR_nn, (vt_nonneg _ _ _ _ V)). assert (P2 : 0 <= p (k + 1)%Z) by (apply getR_nn, (vt_nonneg _ _ _ _ V)). unfold line, seg_area in *. destruct (vt_interp _ _ _ _ V) as [E|E]; rewrite E in *; [nra|].
  set (s := (h - v k) / (v (k + 1)%Z - v k)). assert (S : 0 < s < 1). { unfold s. split; [apply Rdiv_lt_0_compat; lra|]. apply Rmult_lt_reg_r with (v (k + 1)%Z - v k); [lra|]. replace ((h - v k) / (v (k + 1)%Z - v k) * (v (k + 1)%Z - v k)) with (h - v k) by (field; lra). lra. }
  replace (p k + (h - v k) * ((p (k + 1)%Z - p k) / (v (k + 1)%Z - v k))) with ((1 - s) * p k + s * p (k + 1)%Z) by (unfold s; field; lra). destruct (Req_dec (p k) 0) as [Z|Z]; [|nra]. assert (0 < p (k + 1)%Z) by nra. nra.
Qed.
Lemma line_zero k h : between (pc_values t) k h -> c k = c (k + 1)%Z -> f h = 0.
Proof.
  intros B Hc. rewrite (line_dens k h B). destruct B as (H1 & H2 & H3). fold v in H3. assert (A : c (k + 1)%Z - c k = seg_area (pc_interp t) (v k) (p k) (v (k + 1)%Z) (p (k + 1)%Z)) by (apply (vt_area _ _ _ _ V); assumption).
  assert (P1 : 0 <= p k) by (apply getR_nn, (vt_nonneg _ _ _ _ V)). assert (P2 : 0 <= p (k + 1)%Z) by (apply getR_nn, (vt_nonneg _ _ _ _ V)). unfold line, seg_area in *. destruct (vt_interp _ _ _ _ V) as [E|E]; rewrite E in *; [nra|].
  assert (Z : p k = 0) by nra. assert (Z2 : p (k + 1)%Z = 0) by nra. rewrite Z, Z2. field. lra.
Qed.
Lemma c_inc k : (0 <= k)%Z -> (k + 1 < n)%Z -> c k <= c (k + 1)%Z.
Proof. intros. apply (cdf_increasing _ _ _ _ V); pose proof t_sizes; lia. Qed.
Lemma table_moved (G q : R -> R) : (forall k u w, (0 <= k)%Z -> (k + 1 < n)%Z -> c k < c (k + 1)%Z -> v k <= u -> u <= w -> w <= v (k + 1)%Z -> moved f a G q u w) -> forall e, a <= e <= b -> moved f a G q a e.
Proof.
  intros H. assert (S : forall k u w, (0 <= k)%Z -> (k + 1 < n)%Z -> v k <= u -> u <= w -> w <= v (k + 1)%Z -> moved f a G q u w).
  { intros k u w H1 H2 Hu Huw Hw. destruct (c_inc k H1 H2) as [C|C]; [eauto|]. pose proof (t_inc 0 k ltac:(lia) H1 ltac:(lia)) as B1. pose proof (t_inc (k + 1) (n - 1) ltac:(lia) ltac:(lia) ltac:(lia)) as B2.
    apply (moved_zero f a b (fun x _ => t_nn x) t_one); [unfold a, first_of; fold v; lra|exact Huw|unfold b, last_of; fold v n; lra|]. intros h Hh. apply (line_zero k); [|exact C]. split; [exact H1|]. split; [exact H2|fold v; lra]. }
  assert (P : forall m, (Z.of_nat m < n)%Z -> moved f a G q a (v (Z.of_nat m))).
  { induction m as [|m IH]; intros Hm; [apply moved_point|]. apply (moved_join f a G q a (v (Z.of_nat m))); [apply IH; lia|]. replace (Z.of_nat (Datatypes.S m)) with (Z.of_nat m + 1)%Z by lia. pose proof (t_inc (Z.of_nat m) (Z.of_nat m + 1) ltac:(lia) ltac:(lia) ltac:(lia)). apply (S (Z.of_nat m)); try lia; lra. }
  assert (Q : forall m e, (Z.of_nat m < n)%Z -> a <= e <= v (Z.of_nat m) -> moved f a G q a e).
  { induction m as [|m IH]; intros e Hm He.
    - change (v (Z.of_nat 0)) with a in He. replace e with a by lra. apply moved_point.
    - destruct (Rle_dec e (v (Z.of_nat m))) as [C|C]; [apply IH; [lia|lra]|]. apply (moved_join f a G q a (v (Z.of_nat m))); [apply P; lia|]. replace (Z.of_nat (Datatypes.S m)) with (Z.of_nat m + 1)%Z in * by lia. apply (S (Z.of_nat m)); try lia; lra. }
  intros e He. pose proof t_sizes. apply (Q (Z.to_nat (n - 1)) e); [lia|]. rewrite Z2Nat.id by lia. exact He.
Qed.
(** a way of inverting the cumulative function *)
Variable phi : R -> R.
Hypothesis Hphi : forall x, 0 < x < 1 -> a <= phi x <= b /\ iR f a (phi x) x.
Lemma cum_v k : (0 <= k < n)%Z -> cum f a (v k) = c k. Proof. intros Hk. apply cum_is, t_cum, Hk. Qed.
Lemma cum_strict k u w : (0 <= k)%Z -> (k + 1 < n)%Z -> c k < c (k + 1)%Z -> v k <= u -> u < w -> w <= v (k + 1)%Z -> cum f a u < cum f a w.
Proof.
  intros H1 H2 Hc Hu Huw Hw. pose proof (t_inc 0 k ltac:(lia) H1 ltac:(lia)) as B1. pose proof (t_inc (k + 1) (n - 1) ltac:(lia) ltac:(lia) ltac:(lia)) as B2.
  assert (P : 0 < RInt (line k) u w). { apply RInt_gt_0; [exact Huw| |intros; apply line_cont]. intros x Hx. apply line_pos; [split; [exact H1|split; [exact H2|fold v; lra]]|exact Hc]. }
  assert (Q : iR f u w (RInt (line k) u w)). { apply (iR_ext (line k)); [lra|intros x Hx; symmetry; apply line_dens; split; [exact H1|split; [exact H2|fold v; lra]]|]. apply (@RInt_correct R_CompleteNormedModule). apply (@ex_RInt_continuous R_CompleteNormedModule). intros; apply line_cont. }
  rewrite (cum_add f a b (fun x _ => t_nn x) t_one u w _ ltac:(unfold a, first_of; fold v; lra) ltac:(lra) ltac:(unfold b, last_of; fold v n; lra) Q). lra.
Qed.
(** a draw that leads into a segment with some probability lies in the corresponding interval of the cumulative function *)
Lemma phi_bin k x : (0 <= k)%Z -> (k + 1 < n)%Z -> c k < c (k + 1)%Z -> 0 < x < 1 -> v k < phi x <= v (k + 1)%Z -> c k < x <= c (k + 1)%Z /\ x = cum f a (phi x).
Proof.
  intros H1 H2 Hc Hx Hh. assert (E : x = cum f a (phi x)) by (symmetry; apply cum_is, Hphi, Hx). split; [|exact E]. rewrite E. rewrite <- !cum_v by lia. split; [apply (cum_strict k); lra || lia|].
  destruct (proj2 Hh) as [D|D]; [left; apply (cum_strict k); lra || lia|rewrite D; lra].
Qed.
Lemma seg_moved k (G0 G q : R -> R) u w : (0 <= k)%Z -> (k + 1 < n)%Z -> v k <= u -> u <= w -> w <= v (k + 1)%Z -> c k < c (k + 1)%Z ->
  (forall h, u <= h <= w -> continuous G0 h) -> (forall h, u < h < w -> G h = G0 h) -> (forall x, 0 < x < 1 -> u < phi x < w -> q x = G0 (phi x)) -> moved f a G q u w.
Proof.
  intros H1 H2 Hu Huw Hw Hc Cg Eg Eq. destruct (Req_dec u w) as [->|Nuw]; [apply moved_point|]. pose proof (t_inc 0 k ltac:(lia) H1 ltac:(lia)) as B1. pose proof (t_inc (k + 1) (n - 1) ltac:(lia) ltac:(lia) ltac:(lia)) as B2.
  apply (moved_piece f a b phi (fun x _ => t_nn x) t_one Hphi (line k) G0); try assumption.
  - unfold a, first_of. fold v. lra.
  - lra.
  - unfold b, last_of. fold v n. lra.
  - intros h. apply line_cont.
  - intros h Hh. assert (B : between (pc_values t) k h) by (split; [exact H1|split; [exact H2|fold v; lra]]). split; [apply line_pos; assumption|apply line_dens; exact B].
Qed.
Lemma joint_table (s : rand R (R * R)) m cphi (q G k : R -> R -> R) : (forall l w r, (length l < S m)%nat -> s l <> Ok (w, r)) ->
  (forall x l r, 0 < x < 1 -> unit_draws m l -> open01 r -> s (x :: l ++ r) = Ok ((cphi x l, phi x), r)) -> (forall x l, 0 < x < 1 -> unit_draws m l -> -1 <= cphi x l <= 1) ->
  (forall mu x, -1 <= mu <= 1 -> 0 < x < 1 -> prob m (fun l => cphi x l <= mu) (q mu x)) -> (forall mu h, -1 <= mu <= 1 -> a < h < b -> iR (fun y => k y h) (-1) mu (G mu h)) ->
  (forall mu e, -1 <= mu <= 1 -> a <= e <= b -> moved f a (G mu) (q mu) a e) -> joint_law s a b (fun mu h => f h * k mu h).
Proof.
  intros Sh Hs Hr Hq HG HM. split.
  - apply (law_step s m (fun x l => (cphi x l, phi x)) _ (fun _ => 1)); [intros w; destruct (Rle_dec (-1) (fst w)); [|right; lra]; destruct (Rle_dec (fst w) 1); [|right; lra]; destruct (Rle_dec a (snd w)); [|right; lra]; destruct (Rle_dec (snd w) b); [left|right]; lra|exact Sh|exact Hs| |].
    + intros x Hx. apply prob_always. intros l Hl. cbn [fst snd]. pose proof (Hr x l Hx Hl). pose proof (Hphi x Hx). tauto.
    + eapply iR_eq; [|apply (iR_const_on (fun _ => 1) 0 1 1); [lra|reflexivity]]. ring.
  - intros mu e Hmu He. destruct (moved_cut f a b phi (fun x _ => t_nn x) t_one Hphi (G mu) (q mu) e He (HM mu e Hmu He)) as (J & J1 & J2). exists (fun h => f h * G mu h), J. split; [|split; [exact J1|]].
    + intros h Hh. apply (@is_RInt_scal R_NormedModule (fun y => k y h)). apply HG; [exact Hmu|lra].
    + apply (law_step s m (fun x l => (cphi x l, phi x)) _ (fun x => if Rle_dec (phi x) e then q mu x else 0)); [intros w; destruct (Rle_dec (fst w) mu), (Rle_dec (snd w) e); [left; tauto|right; tauto..]|exact Sh|exact Hs| |exact J2].
      intros x Hx. cbn [fst snd]. destruct (Rle_dec (phi x) e) as [C|C].
      * eapply prob_ext; [|apply (Hq mu x Hmu Hx)]. intros l _. cbv beta. tauto.
      * apply prob_never. intros l _. tauto.
Qed.
End Table.
