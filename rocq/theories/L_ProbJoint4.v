(** * The joint laws of TabularEnergyAngle and Kalbach *)
From Coq Require Import Reals Lra Lia List Arith ZifyBool ZifyNat. From Coquelicot Require Import Coquelicot.
From Verif Require Import Base NumR M_Interp M_PC S_PC M_OutE S_OutE L_Search L_SearchR L_PC L_PCR L_Interp2 L_Legendre L_Angle L_OutE L_OutE3 L_OutE4 L_OutE5 S_Prob L_Prob L_ProbEv L_ProbLaw L_ProbAngle L_ProbDbrc S_JointLaw L_ProbJoint L_ProbJoint2 L_ProbJoint3. Import ListNotations.
Local Open Scope R_scope.
Local Notation iR := (@is_RInt R_NormedModule).

(** ** one energy-angle table *)
Lemma flat_dec t k : {flat t k} + {~ flat t k}.
Proof. unfold flat. destruct (ea_interp t); [left; left; reflexivity|..]; (destruct (Req_EM_T (getR (ea_pdf t) k) (getR (ea_pdf t) (k + 1))); [left; right; assumption|right; intros [H|H]; [discriminate|contradiction]]). Qed.
Definition uidx (t : eat R) (x : R) : Z :=
  match lower_bound (ea_cdf t) x with
  | Ok k => if flat_dec t (k - 1) then (k - 1)%Z else if Rlt_dec ((x - getR (ea_cdf t) (k - 1)) / (getR (ea_cdf t) (k - 1 + 1) - getR (ea_cdf t) (k - 1))) (1 / 2) then (k - 1)%Z else (k - 1 + 1)%Z
  | _ => 0%Z end.
Definition ephi (t : eat R) (x : R) : R := match ea_sample t [x; 1 / 2] with Ok ((_, e), _) => e | _ => 0 end.
Lemma uidx_value t x l : valid_eat t -> (0 <= l)%Z -> (l + 1 < sizeZ (ea_energy t))%Z -> getR (ea_cdf t) l < x <= getR (ea_cdf t) (l + 1) ->
  uidx t x = if flat_dec t l then l else if Rlt_dec ((x - getR (ea_cdf t) l) / (getR (ea_cdf t) (l + 1) - getR (ea_cdf t) l)) (1 / 2) then l else (l + 1)%Z.
Proof.
  intros V H1 H2 Hx. pose proof (ve_table t V) as VT. pose proof (cdf_increasing _ _ _ _ VT) as Ic. destruct (valid_sizes _ _ _ _ VT) as [_ Sc]. unfold uidx. rewrite (lower_boundR_eq (ea_cdf t) x (l + 1) Ic).
  - replace (l + 1 - 1)%Z with l by lia. reflexivity.
  - split; [lia|]. split; intros i Hi; [assert (getR (ea_cdf t) i <= getR (ea_cdf t) l) by (apply Ic; lia); lra|assert (getR (ea_cdf t) (l + 1) <= getR (ea_cdf t) i) by (apply Ic; lia); lra].
Qed.
Lemma ea_same_energy t x y z ds ds' m e r m' e' r' : ea_sample t (x :: y :: ds) = Ok ((m, e), r) -> ea_sample t (x :: z :: ds') = Ok ((m', e'), r') -> e = e'.
Proof.
  unfold ea_sample, rbind, rlift, draw, rret. cbn [bind]. destruct (lower_bound (ea_cdf t) x) as [k| | |]; cbn [bind]; try discriminate.
  match goal with |- context [match (match ?z with Ok _ => _ | _ => _ end) with _ => _ end] => idtac | _ => idtac end.
  set (fl := match ea_interp t with Histogram => Ok true | _ => _ end). destruct fl as [b| | |]; cbn [bind]; try discriminate. destruct b.
  - destruct (pc_histogram (ea_pc t) x (k - 1)) as [h| | |]; cbn [bind]; try discriminate. destruct (atZ (ea_angles t) (k - 1)) as [a| | |]; cbn [bind]; try discriminate. destruct (pc_sample a y); cbn [bind]; try discriminate. destruct (pc_sample a z); cbn [bind]; try discriminate. intros H1 H2. injection H1 as _ <- _. injection H2 as _ <- _. reflexivity.
  - destruct (pc_linear (ea_pc t) x (k - 1)) as [h| | |]; cbn [bind]; try discriminate. destruct (atZ (ea_cdf t) (k - 1)) as [c1| | |]; cbn [bind]; try discriminate. destruct (atZ (ea_cdf t) (k - 1 + 1)) as [c2| | |]; cbn [bind]; try discriminate. destruct (atZ (ea_angles t) _) as [a| | |]; cbn [bind]; try discriminate. destruct (pc_sample a y); cbn [bind]; try discriminate. destruct (pc_sample a z); cbn [bind]; try discriminate. intros H1 H2. injection H1 as _ <- _. injection H2 as _ <- _. reflexivity.
Qed.
Lemma ea_eq t x y ds : valid_eat t -> 0 < x < 1 -> 0 < y < 1 -> exists m, (0 <= uidx t x < sizeZ (ea_energy t))%Z /\ pc_sample (ea_angle t (uidx t x)) y = Ok m /\ ea_sample t (x :: y :: ds) = Ok ((@clamp_mu R NumR m, ephi t x), ds).
Proof.
  intros V Hx Hy. destruct (ea_sample_which t x y ds V Hx ltac:(lra)) as (l & a & k & m & e & L1 & L2 & C & NP & Ea & Em & Es & _). destruct (ea_sample_which t x (1 / 2) [] V Hx ltac:(lra)) as (l' & a' & k' & m' & e' & _ & _ & _ & _ & _ & _ & Es' & _).
  assert (Ek : uidx t x = k).
  { rewrite (uidx_value t x l V L1 L2 C). destruct NP as [(-> & [F|F])|(-> & F1 & F2)].
    - destruct (flat_dec t l) as [_|N]; [reflexivity|exfalso; apply N; exact F].
    - destruct (flat_dec t l); [reflexivity|]. destruct (Rlt_dec _ (1 / 2)); [reflexivity|contradiction].
    - destruct (flat_dec t l) as [N|_]; [contradiction|]. destruct (Rlt_dec _ (1 / 2)); [lra|reflexivity]. }
  assert (Kr : (0 <= k < sizeZ (ea_energy t))%Z) by (destruct NP as [(-> & _)|(-> & _)]; lia). exists m. rewrite Ek. split; [exact Kr|]. destruct (ea_angle_at t k V Kr) as [E' _]. rewrite Ea in E'. apply Ok_eq in E'. rewrite <- E'. split; [exact Em|]. rewrite Es. f_equal. f_equal. f_equal. unfold ephi. rewrite Es'. exact (ea_same_energy t x y (1 / 2) ds [] _ _ _ _ _ _ Es Es').
Qed.
Lemma ephi_ok t x : valid_eat t -> 0 < x < 1 -> first_of (ea_energy t) <= ephi t x <= last_of (ea_energy t) /\ iR (tdens (ea_pc t)) (first_of (ea_energy t)) (ephi t x) x.
Proof.
  intros V Hx. destruct (ea_sample_which t x (1 / 2) [] V Hx ltac:(lra)) as (l & a & k & m & e & _ & _ & _ & _ & _ & _ & Es & B & I). unfold ephi. rewrite Es. split; [exact B|exact I].
Qed.
(** the cosine of the angular tables *)
Definition angs (a : pctable R) : rand R R := fun ds => match ds with y :: r => let! m := pc_sample a y in Ok (@clamp_mu R NumR m, r) | [] => NoDraw end.
Lemma ang_density a : valid_pc a -> -1 <= first_of (pc_values a) -> last_of (pc_values a) <= 1 -> has_density (angs a) (-1) 1 (tdens a).
Proof.
  intros V A1 A2. destruct (pcs_density a V) as [_ D]. pose proof (valid_wide _ _ _ _ V) as W. apply (density_same (pcs a)).
  - intros ds F. destruct ds as [|x ds]; [reflexivity|]. inversion F; subst. destruct (valid_sample a x V ltac:(lra)) as (h & Eh & B). cbn [pcs angs]. rewrite Eh. cbn [bind]. rewrite clamp_mu_id by lra. reflexivity.
  - apply (density_widen (pcs a) (first_of (pc_values a)) (last_of (pc_values a))); try lra; [| |exact D].
    + intros v ds r F H. exact (pcs_range a v ds r V F H).
    + intros x H. apply tdens_outside; assumption.
Qed.
Definition acum (a : pctable R) (m : R) : R := RInt (tdens a) (-1) m.
Lemma ang_law a m : valid_pc a -> -1 <= first_of (pc_values a) -> last_of (pc_values a) <= 1 -> -1 <= m <= 1 -> 
  prob 1 (fun l => match l with [y] => match pc_sample a y with Ok v => @clamp_mu R NumR v | _ => 0 end | _ => 0 end <= m) (acum a m) /\ iR (tdens a) (-1) m (acum a m).
Proof.
  intros V A1 A2 Hm. destruct (ang_density a V A1 A2) as [_ D]. destruct (D m Hm) as (q & L & I). assert (E : acum a m = q) by (apply (@is_RInt_unique R_CompleteNormedModule); exact I). rewrite E. split; [|exact I].
  apply (uses_prob (angs a) 1 (fun l => match l with [y] => match pc_sample a y with Ok v => @clamp_mu R NumR v | _ => 0 end | _ => 0 end) (fun v => v <= m) q); [|exact L]. split.
  - intros l r Hl _. apply ud1 in Hl as (y & -> & Hy). cbn [app angs]. destruct (valid_sample a y V ltac:(lra)) as (h & Eh & B). rewrite Eh. reflexivity.
  - intros l Hl v r. destruct l; [discriminate|cbn in Hl; lia].
Qed.
(** half of the probability of a segment lies below h *)
Lemma half_cum t k h : valid_eat t -> (0 <= k)%Z -> (k + 1 < sizeZ (ea_energy t))%Z -> getR (ea_energy t) k <= h <= getR (ea_energy t) (k + 1) -> getR (ea_energy t) k < getR (ea_energy t) (k + 1) -> ea_interp t = LinLin ->
  (lower_half t k h <-> cum (tdens (ea_pc t)) (first_of (ea_energy t)) h - getR (ea_cdf t) k < (getR (ea_cdf t) (k + 1) - getR (ea_cdf t) k) / 2).
Proof.
  intros V H1 H2 Hh Hk Hi. pose proof (ve_table t V) as VT.
  assert (S : iR (tdens (ea_pc t)) (getR (ea_energy t) k) h (integrate LinLin (getR (ea_energy t) k) h (getR (ea_energy t) k) (getR (ea_pdf t) k) (getR (ea_energy t) (k + 1)) (getR (ea_pdf t) (k + 1)))).
  { rewrite <- Hi. apply (seg_integral _ _ _ _ VT k); try assumption; lra. }
  assert (C : cum (tdens (ea_pc t)) (first_of (ea_energy t)) h = getR (ea_cdf t) k + integrate LinLin (getR (ea_energy t) k) h (getR (ea_energy t) k) (getR (ea_pdf t) k) (getR (ea_energy t) (k + 1)) (getR (ea_pdf t) (k + 1))).
  { apply cum_is. eapply iR_chasles; [exact (integral_from_0 _ _ _ _ VT k ltac:(lia))|exact S]. }
  rewrite C. pose proof (vt_area _ _ _ _ VT k H1 H2) as A. rewrite Hi in A. unfold seg_area in A. rewrite A. unfold lower_half, mix. cbv zeta. cbn [integrate]. unfold linlin_integrate. rnum.
  set (e1 := getR (ea_energy t) k) in *. set (e2 := getR (ea_energy t) (k + 1)) in *. set (p1 := getR (ea_pdf t) k). set (p2 := getR (ea_pdf t) (k + 1)).
  match goal with |- ?l < ?r <-> ?l' < ?r' => replace l' with l by (field; lra); replace r' with r by lra end. tauto.
Qed.

Lemma ea_joint t (A : R -> pctable R) : valid_eat t -> cosines_in t -> (forall h, In (A h) (ea_angles t)) -> (forall k h, between (ea_energy t) k h -> angular_table t h (A h)) ->
  joint_law (ea_sample t) (first_of (ea_energy t)) (last_of (ea_energy t)) (fun mu h => tdens (ea_pc t) h * tdens (A h) mu).
Proof.
  intros V CI HA HT. assert (Vp : valid_pc (ea_pc t)) by exact (ve_table t V). pose proof (ephi_ok t) as EO.
  assert (Hphi : forall x, 0 < x < 1 -> first_of (ea_energy t) <= ephi t x <= last_of (ea_energy t) /\ iR (tdens (ea_pc t)) (first_of (ea_energy t)) (ephi t x) x) by (intros x Hx; apply EO; assumption).
  assert (AL : forall a m, In a (ea_angles t) -> -1 <= m <= 1 -> prob 1 (fun l => match l with [y] => match pc_sample a y with Ok v => @clamp_mu R NumR v | _ => 0 end | _ => 0 end <= m) (acum a m) /\ iR (tdens a) (-1) m (acum a m)).
  { intros a m Ia Hm. destruct (CI a Ia). apply ang_law; try assumption. apply (ve_angles t V). exact Ia. }
  assert (UI : forall x, 0 < x < 1 -> In (ea_angle t (uidx t x)) (ea_angles t)).
  { intros x Hx. destruct (ea_eq t x (1 / 2) [] V Hx ltac:(lra)) as (m & K & _). destruct (ea_angle_at t (uidx t x) V K) as [E _]. eapply atZ_In'. exact E. }
  apply (joint_table (ea_pc t) Vp (ephi t) Hphi (ea_sample t) 1 (fun x l => match l with [y] => match pc_sample (ea_angle t (uidx t x)) y with Ok v => @clamp_mu R NumR v | _ => 0 end | _ => 0 end)
    (fun m x => acum (ea_angle t (uidx t x)) m) (fun m h => acum (A h) m) (fun mu h => tdens (A h) mu)).
  - intros l w r Hl. destruct l as [|x [|y l]]; [discriminate| |cbn in Hl; lia]. unfold ea_sample, rbind, rlift, draw, rret. cbn [bind]. destruct (lower_bound (ea_cdf t) x) as [k| | |]; cbn [bind]; try discriminate.
    set (fl := match ea_interp t with Histogram => Ok true | _ => _ end). destruct fl as [b| | |]; cbn [bind]; try discriminate. destruct b.
    + destruct (pc_histogram (ea_pc t) x (k - 1)) as [h| | |]; cbn [bind]; try discriminate. destruct (atZ (ea_angles t) (k - 1)) as [a| | |]; cbn [bind]; discriminate.
    + destruct (pc_linear (ea_pc t) x (k - 1)) as [h| | |]; cbn [bind]; try discriminate. destruct (atZ (ea_cdf t) (k - 1)) as [c1| | |]; cbn [bind]; try discriminate. destruct (atZ (ea_cdf t) (k - 1 + 1)) as [c2| | |]; cbn [bind]; try discriminate. destruct (atZ (ea_angles t) _) as [a| | |]; cbn [bind]; discriminate.
  - intros x l r Hx Hl Hr. apply ud1 in Hl as (y & -> & Hy). cbn [app]. destruct (ea_eq t x y r V Hx Hy) as (m & K & E1 & E2). rewrite E1. exact E2.
  - intros x l Hx Hl. apply ud1 in Hl as (y & -> & Hy). destruct (ea_eq t x y [] V Hx Hy) as (m & K & E1 & E2). rewrite E1. apply clamp_mu_bounds.
  - intros mu x Hmu Hx. apply AL; [apply UI; exact Hx|exact Hmu].
  - intros mu h Hmu _. apply AL; [apply HA|exact Hmu].
  - intros mu e Hmu He. apply (table_moved (ea_pc t) Vp); [|exact He]. cbn [ea_pc pc_values pc_cdf]. intros k u w H1 H2 Hc Hu Huw Hw. destruct (Req_dec u w) as [->|Nuw]; [apply moved_point|].
    assert (Hk : getR (ea_energy t) k < getR (ea_energy t) (k + 1)) by lra.
    set (F := cum (tdens (ea_pc t)) (first_of (ea_energy t))).
    assert (Uk : forall k' h, between (ea_energy t) k h -> between (ea_energy t) k' h -> k' = k).
    { intros k' h (_ & _ & B1) (K1 & K2 & B2). pose proof (vt_values _ _ _ _ (ve_table t V)) as Inc. destruct (Z_lt_dec k k') as [L|L]; [assert (getR (ea_energy t) (k + 1) <= getR (ea_energy t) k') by (apply Inc; lia); lra|]. destruct (Z_lt_dec k' k) as [L'|L']; [assert (getR (ea_energy t) (k' + 1) <= getR (ea_energy t) k) by (apply Inc; lia); lra|lia]. }
    (* the table used at an energy of this segment, and by a draw leading to it *)
    assert (HG : forall h, getR (ea_energy t) k < h < getR (ea_energy t) (k + 1) -> (flat t k \/ lower_half t k h -> A h = ea_angle t k) /\ (~ (flat t k \/ lower_half t k h) -> A h = ea_angle t (k + 1))).
    { intros h Hh. assert (B : between (ea_energy t) k h) by (split; [exact H1|split; [exact H2|exact Hh]]). destruct (HT k h B) as (k' & B' & D). rewrite (Uk k' h B B') in D. destruct (ea_angle_at t k V ltac:(lia)) as [E1 _]. destruct (ea_angle_at t (k + 1) V ltac:(lia)) as [E2 _]. destruct D as [[D E]|[D E]]; [rewrite E1 in E|rewrite E2 in E]; apply Ok_eq in E; rewrite E; split; intros; try reflexivity; contradiction. }
    assert (HQ : forall x, 0 < x < 1 -> getR (ea_energy t) k < ephi t x < getR (ea_energy t) (k + 1) -> ea_angle t (uidx t x) = A (ephi t x)).
    { intros x Hx Hh. destruct (phi_bin (ea_pc t) Vp (ephi t) Hphi k x H1 H2 Hc Hx (conj (proj1 Hh) (Rlt_le _ _ (proj2 Hh)))) as [Bx Ex]. cbn [ea_pc pc_values pc_cdf] in Bx, Ex. fold F in Ex. rewrite (uidx_value t x k V H1 H2 Bx). destruct (HG _ Hh) as [G1 G2]. destruct (flat_dec t k) as [Fl|Fl]; [symmetry; apply G1; left; exact Fl|].
      assert (Hi : ea_interp t = LinLin) by (destruct (vt_interp _ _ _ _ (ve_table t V)) as [Q|Q]; [exfalso; apply Fl; left; exact Q|exact Q]).
      pose proof (half_cum t k (ephi t x) V H1 H2 ltac:(lra) Hk Hi) as HC. fold F in HC. rewrite <- Ex in HC. 
      assert (Y : (x - getR (ea_cdf t) k) / (getR (ea_cdf t) (k + 1) - getR (ea_cdf t) k) < 1 / 2 <-> x - getR (ea_cdf t) k < (getR (ea_cdf t) (k + 1) - getR (ea_cdf t) k) / 2).
      { set (d := getR (ea_cdf t) (k + 1) - getR (ea_cdf t) k) in *. assert (Pd : 0 < d) by (unfold d; lra). set (y := x - getR (ea_cdf t) k). split; intros Q; [apply (Rmult_lt_compat_r d) in Q; [|exact Pd]; replace (y / d * d) with y in Q by (field; lra); lra|apply (Rmult_lt_reg_r d); [exact Pd|]; replace (y / d * d) with y by (field; lra); lra]. }
      destruct (Rlt_dec _ (1 / 2)) as [D|D]; symmetry; [apply G1; right; apply HC, Y, D|apply G2; intros [Q|Q]; [contradiction|apply D, Y, HC, Q]]. }
    assert (Piece : forall a' u' w', In a' (ea_angles t) -> u <= u' -> u' <= w' -> w' <= w -> (forall h, u' < h < w' -> A h = a') -> moved (tdens (ea_pc t)) (first_of (ea_energy t)) (fun h => acum (A h) mu) (fun x => acum (ea_angle t (uidx t x)) mu) u' w').
    { intros a' u' w' Ia' Q1 Q2 Q3 EA. apply (seg_moved (ea_pc t) Vp (ephi t) Hphi k (fun _ => acum a' mu)); try assumption; try (cbn [ea_pc pc_values]; lra).
      - intros h _. apply continuous_const.
      - intros h Hh. rewrite EA by exact Hh. reflexivity.
      - intros x Hx Hh. rewrite HQ by (try assumption; lra). rewrite EA by exact Hh. reflexivity. }
    assert (I1 : In (ea_angle t k) (ea_angles t)) by (eapply atZ_In'; apply (ea_angle_at t k V); lia). assert (I2 : In (ea_angle t (k + 1)) (ea_angles t)) by (eapply atZ_In'; apply (ea_angle_at t (k + 1) V); lia).
    destruct (flat_dec t k) as [Fl|Fl]; [apply (Piece (ea_angle t k)); try assumption; try lra; intros h Hh; apply HG; [lra|left; exact Fl]|].
    assert (Hi : ea_interp t = LinLin) by (destruct (vt_interp _ _ _ _ (ve_table t V)) as [Q|Q]; [exfalso; apply Fl; left; exact Q|exact Q]).
    set (mid := (getR (ea_cdf t) k + getR (ea_cdf t) (k + 1)) / 2). destruct (valid_sizes _ _ _ _ (ve_table t V)) as [_ Sc]. pose proof (cdf_increasing _ _ _ _ (ve_table t V)) as Ic.
    assert (C0 : 0 <= getR (ea_cdf t) k) by (rewrite <- (vt_first _ _ _ _ (ve_table t V)); apply Ic; lia). assert (C1 : getR (ea_cdf t) (k + 1) <= 1) by (rewrite <- (vt_last _ _ _ _ (ve_table t V)); apply Ic; lia).
    assert (Hmid : 0 < mid < 1) by (unfold mid; lra). set (s := ephi t mid). 
    assert (CV : forall j, (0 <= j < sizeZ (ea_energy t))%Z -> F (getR (ea_energy t) j) = getR (ea_cdf t) j) by (intros j Hj; exact (cum_v (ea_pc t) Vp j Hj)).
    destruct (phi_le (tdens (ea_pc t)) _ _ (ephi t) (fun x _ => t_nn (ea_pc t) Vp x) (t_one (ea_pc t) Vp) Hphi mid (getR (ea_energy t) k) Hmid) as [_ PL1].
    { pose proof (vt_values _ _ _ _ (ve_table t V)) as Inc. split; apply Inc; cbn [ea_pc pc_values]; lia. }
    destruct (phi_le (tdens (ea_pc t)) _ _ (ephi t) (fun x _ => t_nn (ea_pc t) Vp x) (t_one (ea_pc t) Vp) Hphi mid (getR (ea_energy t) (k + 1)) Hmid) as [PL2 _].
    { pose proof (vt_values _ _ _ _ (ve_table t V)) as Inc. split; apply Inc; cbn [ea_pc pc_values]; lia. }
    cbn [ea_pc pc_values] in PL1, PL2. fold F in PL1, PL2. rewrite CV in PL1, PL2 by lia. specialize (PL1 ltac:(unfold mid; lra)). specialize (PL2 ltac:(unfold mid; lra)). fold s in PL1, PL2. assert (PL1' : getR (ea_energy t) k <= s) by lra.
    assert (Fs : F s = mid) by (apply cum_is, Hphi, Hmid).
    assert (Low : forall h, getR (ea_energy t) k < h < s -> A h = ea_angle t k).
    { intros h Hh. apply HG; [lra|]. right. apply (half_cum t k h V H1 H2 ltac:(lra) Hk Hi). fold F. pose proof (cum_strict (ea_pc t) Vp (ephi t) Hphi k h s H1 H2 Hc (Rlt_le _ _ (proj1 Hh)) (proj2 Hh) PL2) as ST. cbn [ea_pc pc_values] in ST. change (F h < F s) in ST. rewrite Fs in ST. unfold mid in ST. lra. }
    assert (Up : forall h, s < h < getR (ea_energy t) (k + 1) -> A h = ea_angle t (k + 1)).
    { intros h Hh. apply HG; [lra|]. intros [Q|Q]; [contradiction|]. apply (half_cum t k h V H1 H2 ltac:(lra) Hk Hi) in Q. fold F in Q. pose proof (cum_strict (ea_pc t) Vp (ephi t) Hphi k s h H1 H2 Hc PL1' (proj1 Hh) (Rlt_le _ _ (proj2 Hh))) as ST. cbn [ea_pc pc_values] in ST. change (F s < F h) in ST. rewrite Fs in ST. unfold mid in ST. lra. }
    destruct (Rle_dec w s) as [W|W]; [apply (Piece (ea_angle t k)); try assumption; try lra; intros h Hh; apply Low; lra|]. destruct (Rle_dec s u) as [U|U]; [apply (Piece (ea_angle t (k + 1))); try assumption; try lra; intros h Hh; apply Up; lra|].
    apply (moved_join _ _ _ _ u s w); [apply (Piece (ea_angle t k))|apply (Piece (ea_angle t (k + 1)))]; try assumption; try lra; intros h Hh; [apply Low|apply Up]; lra.
Qed.
