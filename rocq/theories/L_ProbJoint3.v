(** * The joint law of Kalbach *)
From Coq Require Import Reals Lra Lia List Arith ZifyBool ZifyNat. From Coquelicot Require Import Coquelicot.
From Verif Require Import Base NumR M_Interp M_PC S_PC M_OutE S_OutE L_Search L_SearchR L_PC L_PCR L_Interp2 L_Legendre L_Angle L_OutE L_OutE3 L_OutE4 L_OutE5 S_Prob L_Prob L_ProbEv L_ProbLaw L_ProbAngle L_ProbDbrc S_JointLaw L_ProbJoint L_ProbJoint2. Import ListNotations.
Local Open Scope R_scope.
Local Notation iR := (@is_RInt R_NormedModule).

Lemma joint_ext s a b (f g : R -> R -> R) : (forall mu h, a < h < b -> f mu h = g mu h) -> joint_law s a b f -> joint_law s a b g.
Proof.
  intros E [A1 A2]. split; [exact A1|]. intros m x Hm Hx. destruct (A2 m x Hm Hx) as (G & J & B1 & B2 & B3). exists G, J. split; [|split; assumption]. intros h Hh. apply (@is_RInt_ext R_NormedModule (fun mu => f mu h)); [|apply B1; exact Hh]. intros mu _. apply E. lra.
Qed.
Lemma joint_same s s' a b (f : R -> R -> R) : (forall ds, open01 ds -> s ds = s' ds) -> joint_law s a b f -> joint_law s' a b f.
Proof.
  intros E [A1 A2]. split; [exact (law_same s s' _ _ E A1)|]. intros m x Hm Hx. destruct (A2 m x Hm Hx) as (G & J & B1 & B2 & B3). exists G, J. split; [exact B1|]. split; [exact B2|]. exact (law_same s s' _ _ E B3).
Qed.
Lemma joint_mix (s s1 s2 : rand R (R * R)) c a b f1 f2 : 0 <= c <= 1 -> (forall v r, s [] <> Ok (v, r)) ->
  (forall x ds, 0 < x < 1 -> open01 ds -> s (x :: ds) = if Rlt_dec c x then s1 ds else s2 ds) -> joint_law s1 a b f1 -> joint_law s2 a b f2 -> joint_law s a b (fun mu h => (1 - c) * f1 mu h + c * f2 mu h).
Proof.
  intros Hc S0 S1 [A1 A2] [B1 B2]. split.
  - eapply law_val; [|exact (law_branch s s1 s2 _ c _ _ Hc S0 S1 A1 B1)]. ring.
  - intros m x Hm Hx. destruct (A2 m x Hm Hx) as (G & J & C1 & C2 & C3). destruct (B2 m x Hm Hx) as (H & K & D1 & D2 & D3). exists (fun h => (1 - c) * G h + c * H h), ((1 - c) * J + c * K). split; [|split].
    + intros h Hh. apply (@is_RInt_plus R_NormedModule (fun mu => (1 - c) * f1 mu h) (fun mu => c * f2 mu h)); [apply (@is_RInt_scal R_NormedModule (fun mu => f1 mu h))|apply (@is_RInt_scal R_NormedModule (fun mu => f2 mu h))]; auto.
    + apply (@is_RInt_plus R_NormedModule (fun h => (1 - c) * G h) (fun h => c * H h)); [apply (@is_RInt_scal R_NormedModule G)|apply (@is_RInt_scal R_NormedModule H)]; assumption.
    + exact (law_branch s s1 s2 _ c _ _ Hc S0 S1 C3 D3).
Qed.
Lemma joint_affine (s s' : rand R (R * R)) a b lo hi (f : R -> R -> R) : a < b -> lo < hi ->
  (forall ds w r, open01 ds -> (s' ds = Ok (w, r) <-> exists v, s ds = Ok (v, r) /\ w = (fst v, lo + (snd v - a) * ((hi - lo) / (b - a))))) ->
  joint_law s a b f -> joint_law s' lo hi (stretched_pair f a b lo hi).
Proof.
  intros Hab Hlh E [A1 A2]. unfold stretched_pair. set (k := (b - a) / (hi - lo)). assert (Pk : 0 < k) by (apply Rdiv_lt_0_compat; lra). assert (Ek : (hi - lo) / (b - a) = / k) by (unfold k; field; lra). assert (Kk : (hi - lo) * k = b - a) by (unfold k; field; lra).
  assert (EV : forall v x, lo + (v - a) * / k <= x <-> v <= a + (x - lo) * k).
  { intros v x. split; intros H.
    - apply (Rmult_le_compat_r k) in H; [|lra]. replace ((lo + (v - a) * / k) * k) with (lo * k + v - a) in H by (field; lra). lra.
    - apply (Rmult_le_reg_r k); [lra|]. replace ((lo + (v - a) * / k) * k) with (lo * k + v - a) by (field; lra). lra. }
  split.
  - apply (law_map s s' _ _ _ E). apply (law_ext01 s (fun v => -1 <= fst v <= 1 /\ a <= snd v <= b)); [|exact A1]. intros v ds r _ _. cbn [fst snd]. rewrite Ek. rewrite EV. replace (a + (hi - lo) * k) with b by lra. assert (lo <= lo + (snd v - a) * / k <-> a <= snd v); [|tauto]. pose proof (Rinv_0_lt_compat k Pk). split; intros; nra.
  - intros m e Hm He. assert (B : a <= a + (e - lo) * k <= b) by (split; nra). destruct (A2 m _ Hm B) as (G & J & G1 & G2 & G3). exists (fun h => k * G (a + (h - lo) * k)), J. split; [|split].
    + intros h Hh. apply (@is_RInt_scal R_NormedModule (fun mu => f mu (a + (h - lo) * k))). apply G1. split; nra.
    + apply (iR_ext (fun x => k * G (k * x + (a - lo * k)))); [lra|intros x _; f_equal; f_equal; ring|]. apply (@is_RInt_comp_lin R_NormedModule G k (a - lo * k) lo e J). replace (k * lo + (a - lo * k)) with a by ring. replace (k * e + (a - lo * k)) with (a + (e - lo) * k) by ring. exact G2.
    + apply (law_map s s' _ _ _ E). apply (law_ext01 s (fun v => fst v <= m /\ snd v <= a + (e - lo) * k)); [|exact G3]. intros v ds r _ _. cbn [fst snd]. rewrite Ek, EV. tauto.
Qed.

(** ** one Kalbach table *)
Definition kt_pc (t : kt R) : pctable R := mkPC (k_energy t) (k_pdf t) (k_cdf t) (k_interp t).
Definition kt_pair (t : kt R) (ds : list R) : res (R * R * list R) :=
  match ds with x :: r => let! h := k_sample t x in let! rv := k_Rof t h in let! av := k_Aof t h in let! q := kal_mu rv av r in Ok ((fst q, h), snd q) | [] => NoDraw end.
Definition par (t : kt R) (l : list R) (h : R) : R := match k_param t l h with Ok y => y | _ => 0 end.
Definition kcum (m a r : R) : R := (sinh (a * m) - sinh (a * -1) + r * (cosh (a * m) - cosh (a * -1))) / (2 * sinh a).
Lemma par_ok t l h : valid_kt t -> sizeZ l = sizeZ (k_energy t) -> k_param t l h = Ok (par t l h).
Proof. intros V L. destruct (k_param_between t l (vt_values _ _ _ _ (vk_table t V)) (valid_kt_n t V) L h) as (y & _ & E & _). unfold par. rewrite E. reflexivity. Qed.
Lemma par_between t l h lo hi : valid_kt t -> sizeZ l = sizeZ (k_energy t) -> (forall y, In y l -> lo <= y <= hi) -> lo <= par t l h <= hi.
Proof.
  intros V L B. destruct (k_param_between t l (vt_values _ _ _ _ (vk_table t V)) (valid_kt_n t V) L h) as (y & k & E & K1 & K2 & j & J1 & J2 & Y). unfold par. rewrite E.
  assert (Bk : lo <= getR l k <= hi) by (apply B, getR_In; lia). assert (Bj : lo <= getR l j <= hi) by (apply B, getR_In; lia). split; [apply Rle_trans with (2 := proj1 Y)|apply Rle_trans with (1 := proj2 Y)]; [apply Rmin_glb; lra|apply Rmax_lub; lra].
Qed.
Lemma par_pos t l h : valid_kt t -> sizeZ l = sizeZ (k_energy t) -> (forall y, In y l -> 0 < y) -> 0 < par t l h.
Proof.
  intros V L B. destruct (k_param_between t l (vt_values _ _ _ _ (vk_table t V)) (valid_kt_n t V) L h) as (y & k & E & K1 & K2 & j & J1 & J2 & Y). unfold par. rewrite E.
  assert (Bk : 0 < getR l k) by (apply B, getR_In; lia). assert (Bj : 0 < getR l j) by (apply B, getR_In; lia). apply Rlt_le_trans with (2 := proj1 Y). apply Rmin_glb_lt; lra.
Qed.
Lemma kal_law r a m : 0 < a -> 0 <= r <= 1 -> -1 <= m <= 1 -> law (kal_mu r a) (fun v => v <= m) (kcum m a r).
Proof.
  intros Ha Hr Hm. destruct (kal_mu_density a r Ha Hr) as [_ D]. destruct (D m Hm) as (q & L & I). replace (kcum m a r) with q; [exact L|]. transitivity (RInt (kalbach_density a r) (-1) m); [symmetry|]; apply (@is_RInt_unique R_CompleteNormedModule); [exact I|]. apply kalbach_cdf. lra.
Qed.
Lemma kal_uses r a : uses (kal_mu r a) 2 (fun l => match kal_mu r a l with Ok (v, _) => v | _ => 0 end).
Proof.
  split.
  - intros l d [Hl _] _. destruct l as [|x [|y [|]]]; try discriminate. cbn [app]. unfold kal_mu, rbind, draw, rret. cbn [bind]. destruct (nltb r x); reflexivity.
  - intros l Hl v d. destruct l as [|x [|y l]]; [discriminate| |cbn in Hl; lia]. unfold kal_mu, rbind, draw, rret. cbn [bind]. destruct (nltb r x); discriminate.
Qed.
(** the parameters on a segment *)
Definition pline (t : kt R) (l : list R) (k : Z) (h : R) : R :=
  match k_interp t with Histogram => getR l k | _ => getR l k + (h - getR (k_energy t) k) * ((getR l (k + 1) - getR l k) / (getR (k_energy t) (k + 1) - getR (k_energy t) k)) end.
Lemma par_line t l k h : valid_kt t -> sizeZ l = sizeZ (k_energy t) -> between (k_energy t) k h -> par t l h = pline t l k h.
Proof.
  intros V L (H1 & H2 & H3). pose proof (vt_values _ _ _ _ (vk_table t V)) as I. assert (getR (k_energy t) (k + 1) <= last_of (k_energy t)) by (apply I; lia). unfold par. rewrite (k_param_inside t l I (valid_kt_n t V) L h k) by (try lia; lra). unfold pline, mix. destruct (k_interp t); [reflexivity|..]; unfold Rdiv; ring.
Qed.
Lemma pline_pos t l k h : (0 <= k)%Z -> (k + 1 < sizeZ (k_energy t))%Z -> sizeZ l = sizeZ (k_energy t) -> getR (k_energy t) k < getR (k_energy t) (k + 1) -> getR (k_energy t) k <= h <= getR (k_energy t) (k + 1) -> (forall y, In y l -> 0 < y) -> 0 < pline t l k h.
Proof.
  intros H1 H2 L Hk Hh B. assert (Bk : 0 < getR l k) by (apply B, getR_In; lia). assert (Bj : 0 < getR l (k + 1)) by (apply B, getR_In; lia). 
  assert (X : 0 < getR l k + (h - getR (k_energy t) k) * ((getR l (k + 1) - getR l k) / (getR (k_energy t) (k + 1) - getR (k_energy t) k))).
  { set (w := getR (k_energy t) (k + 1) - getR (k_energy t) k) in *. set (d := h - getR (k_energy t) k) in *. replace (getR l k + d * ((getR l (k + 1) - getR l k) / w)) with (((w - d) * getR l k + d * getR l (k + 1)) / w) by (field; unfold w; lra). assert (Pw : 0 < w) by (unfold w; lra). assert (Pd : 0 <= d <= w) by (unfold w, d; lra). clearbody w d. apply Rdiv_lt_0_compat; [|exact Pw]. destruct (Req_dec d 0) as [->|Nd]; nra. }
  unfold pline. destruct (k_interp t); assumption.
Qed.
Lemma kcum_cont m a0 a1 r0 r1 h : 0 < a0 + h * a1 -> continuous (fun h => kcum m (a0 + h * a1) (r0 + h * r1)) h.
Proof.
  intros P. pose proof (sinh_pos _ P) as S. apply (@ex_derive_continuous R_AbsRing R_NormedModule). unfold kcum, sinh, cosh in *. auto_derive. lra.
Qed.
Lemma pline_aff t l k : exists a0 a1, forall h, pline t l k h = a0 + h * a1.
Proof.
  unfold pline. set (sl := (getR l (k + 1) - getR l k) / (getR (k_energy t) (k + 1) - getR (k_energy t) k)). destruct (k_interp t); [exists (getR l k), 0; intros; ring|..]; exists (getR l k - getR (k_energy t) k * sl), sl; intros; ring.
Qed.
Lemma kt_joint t : good_kt t -> joint_law (kt_pair t) (first_of (k_energy t)) (last_of (k_energy t)) (fun mu h => tdens (kt_pc t) h * kalbach_density (par t (k_A t) h) (par t (k_R t) h) mu).
Proof.
  intros (V & PA & PR). assert (Vp : valid_pc (kt_pc t)) by exact (vk_table t V). pose proof (vk_A t V) as LA. pose proof (vk_R t V) as LR.
  assert (Ap : forall h, 0 < par t (k_A t) h) by (intros h; apply par_pos; assumption). assert (Rp : forall h, 0 <= par t (k_R t) h <= 1) by (intros h; apply par_between; assumption).
  apply (joint_table (kt_pc t) Vp (tphi (kt_pc t)) (t_phi2 (kt_pc t) Vp) (kt_pair t) 2 (fun x l => match kal_mu (par t (k_R t) (tphi (kt_pc t) x)) (par t (k_A t) (tphi (kt_pc t) x)) l with Ok (v, _) => v | _ => 0 end)
    (fun m x => kcum m (par t (k_A t) (tphi (kt_pc t) x)) (par t (k_R t) (tphi (kt_pc t) x))) (fun m h => kcum m (par t (k_A t) h) (par t (k_R t) h)) (fun mu h => kalbach_density (par t (k_A t) h) (par t (k_R t) h) mu)).
  - intros l w r Hl. destruct l as [|x l]; [discriminate|]. cbn [kt_pair]. destruct (k_sample t x) as [h| | |]; cbn [bind]; try discriminate. unfold k_Rof, k_Aof. rewrite !par_ok by assumption. cbn [bind]. pose proof (proj2 (kal_uses (par t (k_R t) h) (par t (k_A t) h)) l ltac:(cbn in Hl; lia)) as N. destruct (kal_mu _ _ l) as [[u d]| | |]; cbn [bind]; try discriminate. exfalso. exact (N u d eq_refl).
  - intros x l r Hx Hl Hr. cbn [kt_pair]. destruct (t_phi (kt_pc t) Vp x Hx) as [E _]. change (k_sample t x) with (pc_sample (kt_pc t) x). rewrite E. cbn [bind]. unfold k_Rof, k_Aof. rewrite !par_ok by assumption. cbn [bind]. rewrite (proj1 (kal_uses _ _) l r Hl Hr). cbn [bind fst snd]. reflexivity.
  - intros x l Hx Hl. pose proof (proj1 (kal_uses (par t (k_R t) (tphi (kt_pc t) x)) (par t (k_A t) (tphi (kt_pc t) x))) l [] Hl (Forall_nil _)) as E. rewrite app_nil_r in E. exact (kal_mu_cosine _ _ _ _ _ E).
  - intros mu x Hmu Hx. apply (uses_prob (kal_mu (par t (k_R t) (tphi (kt_pc t) x)) (par t (k_A t) (tphi (kt_pc t) x))) 2 _ (fun v => v <= mu) _ (kal_uses _ _)). apply kal_law; auto.
  - intros mu h _ _. apply kalbach_cdf. pose proof (Ap h). lra.
  - intros mu e Hmu He. apply (table_moved (kt_pc t) Vp); [|exact He]. cbn [kt_pc pc_values pc_cdf]. intros k u w H1 H2 Hc Hu Huw Hw. destruct (Req_dec u w) as [->|Nuw]; [apply moved_point|].
    assert (Hk : getR (k_energy t) k < getR (k_energy t) (k + 1)) by lra.
    assert (Eg : forall h, u < h < w -> kcum mu (par t (k_A t) h) (par t (k_R t) h) = kcum mu (pline t (k_A t) k h) (pline t (k_R t) k h)).
    { intros h Hh. assert (B : between (k_energy t) k h) by (split; [exact H1|split; [exact H2|lra]]). rewrite !(par_line t _ k h V) by assumption. reflexivity. }
    apply (seg_moved (kt_pc t) Vp (tphi (kt_pc t)) (t_phi2 (kt_pc t) Vp) k (fun h => kcum mu (pline t (k_A t) k h) (pline t (k_R t) k h))); try assumption.
    + intros h Hh. assert (P : 0 < pline t (k_A t) k h) by (apply pline_pos; try assumption; lra). destruct (pline_aff t (k_A t) k) as (a0 & a1 & EA). destruct (pline_aff t (k_R t) k) as (r0 & r1 & ER). rewrite EA in P. apply (continuous_ext (fun h => kcum mu (a0 + h * a1) (r0 + h * r1))); [intros y; rewrite EA, ER; reflexivity|]. apply kcum_cont. exact P.
    + intros x Hx Hu2. apply Eg. exact Hu2.
Qed.
