(** * Joint densities of the two kinds of energy-angle table, and what their constructors accept *)
From Coquelicot Require Import Coquelicot.
From Verif Require Import Base NumR L_Search L_SearchR M_Interp M_PC S_PC L_PC L_PCR M_OutE S_OutE L_Interp2 L_Legendre L_Angle L_OutE L_OutE2 L_OutE3 L_Xs.
From Coq Require Import ZifyBool ZifyNat List.
Import ListNotations.
Local Open Scope R_scope.

(** the tabulated point whose angular table is used for a draw xi in the CDF bin [l, l+1]: the lower one when the density is constant
    on the bin or xi lies in its first half, the upper one otherwise *)
Definition nearest_point (t : eat R) (l : Z) (xi : R) (k : Z) : Prop :=
  (k = l /\ ((ea_interp t = Histogram \/ getR (ea_pdf t) l = getR (ea_pdf t) (l + 1)) \/ (xi - getR (ea_cdf t) l) / (getR (ea_cdf t) (l + 1) - getR (ea_cdf t) l) < 1 / 2)) \/
  (k = (l + 1)%Z /\ ~ (ea_interp t = Histogram \/ getR (ea_pdf t) l = getR (ea_pdf t) (l + 1)) /\ 1 / 2 <= (xi - getR (ea_cdf t) l) / (getR (ea_cdf t) (l + 1) - getR (ea_cdf t) l)).
Lemma ea_sample_which t xi x2 ds : valid_eat t -> 0 < xi < 1 -> 0 <= x2 < 1 ->
  exists l a k m e, (0 <= l)%Z /\ (l + 1 < sizeZ (ea_energy t))%Z /\ getR (ea_cdf t) l < xi <= getR (ea_cdf t) (l + 1) /\ nearest_point t l xi k /\ atZ (ea_angles t) k = Ok a /\ pc_sample a x2 = Ok m /\
    ea_sample t (xi :: x2 :: ds) = Ok ((@clamp_mu R NumR m, e), ds) /\ first_of (ea_energy t) <= e <= last_of (ea_energy t) /\
    is_RInt (dens (ea_energy t) (ea_pdf t) (ea_cdf t) (ea_interp t)) (first_of (ea_energy t)) e xi.
Proof.
  intros VE Hx X2. destruct VE as [V Sz VA]. destruct t as [en pd cd an i]. cbn [ea_energy ea_pdf ea_cdf ea_angles ea_interp] in *.
  pose proof (cdf_increasing _ _ _ _ V) as Ic. assert (Hc : sizeZ cd = sizeZ en) by (destruct V; unfold sizeZ; congruence). assert (Hp : sizeZ pd = sizeZ en) by (destruct V; unfold sizeZ; congruence).
  destruct (lower_boundR cd xi Ic) as (k & Ek & K0 & K1 & K2).
  assert (Kn : (k < sizeZ en)%Z).
  { destruct (Z_lt_dec k (sizeZ en)); [assumption|]. specialize (K1 (sizeZ cd - 1)%Z ltac:(destruct V; lia)). rewrite (vt_last _ _ _ _ V) in K1. lra. }
  assert (Kp : (0 < k)%Z). { destruct (Z_lt_dec 0 k); [assumption|]. specialize (K2 0%Z ltac:(lia)). rewrite (vt_first _ _ _ _ V) in K2. lra. }
  assert (exists l, k = (l + 1)%Z) as [l ->] by (exists (k - 1)%Z; lia).
  assert (Cx : getR cd l < xi <= getR cd (l + 1)) by (split; [apply K1; lia|apply K2; lia]).
  destruct (seg_sample _ _ _ _ V l xi ltac:(lia) ltac:(lia) Cx) as (e & Es & Ie & Be).
  assert (Ien : increasing en) by (destruct V; assumption).
  assert (Re : first_of en <= e <= last_of en).
  { unfold first_of, last_of. assert (getR en 0 <= getR en l) by (apply Ien; lia). assert (getR en (l + 1) <= getR en (sizeZ en - 1)) by (apply Ien; lia). lra. }
  unfold segf in Es. cbn [pc_interp pc_pdfs tbl] in Es. fold (@tbl en pd cd i) in *.
  assert (Fin : forall kk, kk = l \/ kk = (l + 1)%Z -> exists a m, (0 <= kk < sizeZ en)%Z /\ atZ an kk = Ok a /\ pc_sample a x2 = Ok m).
  { intros kk Hk. assert (0 <= kk < sizeZ en)%Z by lia. destruct (atZ_ok an kk) as [a Ea]; [lia|]. destruct (valid_sample a x2 (VA a (atZ_In' _ _ _ Ea)) X2) as (m & Em & _). eauto. }
  unfold ea_sample, rbind, rlift, rret, draw. cbn [ea_energy ea_pdf ea_cdf ea_angles ea_interp]. rewrite Ek. cbn [bind]. replace (l + 1 - 1)%Z with l by lia.
  unfold ea_pc. cbn [ea_energy ea_pdf ea_cdf ea_angles ea_interp]. change (mkPC en pd cd i) with (@tbl en pd cd i).
  rewrite !(atR pd) by lia. rewrite !(atR cd) by lia.
  pose proof (eq_refl (match i with Histogram => true | _ => Reqb (getR pd l) (getR pd (l + 1)) end)) as Hflat. set (flat := match i with Histogram => true | _ => Reqb (getR pd l) (getR pd (l + 1)) end).
  assert (Es2 : (if flat then pc_histogram (tbl en pd cd i) xi l else pc_linear (tbl en pd cd i) xi l) = Ok e).
  { rewrite <- Es. unfold flat. destruct i; [reflexivity|..]; rewrite !(atR pd) by lia; cbn [bind]; reflexivity. }
  replace (match i with Histogram => Ok true | _ => let! p1 := Ok (getR pd l) in let! p2 := Ok (getR pd (l + 1)) in Ok (neqb p1 p2) end) with (@Ok bool flat) by (unfold flat; destruct i; reflexivity).
  cbn [bind]. fold flat in Hflat. assert (Hfl : flat = true <-> i = Histogram \/ getR pd l = getR pd (l + 1)).
  { unfold flat. destruct i; rewrite ?Reqb_true; intuition (try discriminate; try reflexivity). }
  clearbody flat. clear Hflat. destruct flat.
  - rewrite Es2. cbn [bind]. destruct (Fin l (or_introl eq_refl)) as (a & m & B1 & B2 & B3). rewrite B2. cbn [bind]. rewrite B3. cbn [bind].
    exists l, a, l, m, e. split; [lia|]. split; [lia|]. split; [exact Cx|]. split; [left; split; [reflexivity|left; apply Hfl; reflexivity]|]. split; [exact B2|]. split; [exact B3|]. split; [reflexivity|]. split; [exact Re|exact Ie].
  - rewrite Es2. cbn [bind]. set (kk := if nltb _ _ then l else (l + 1)%Z). destruct (Fin kk) as (a & m & B1 & B2 & B3); [unfold kk; match goal with |- context [if ?b then _ else _] => destruct b end; auto|].
    rewrite B2. cbn [bind]. rewrite B3. cbn [bind]. exists l, a, kk, m, e. split; [lia|]. split; [lia|]. split; [exact Cx|]. split; [clear - Hfl; unfold nearest_point; cbn [ea_cdf ea_pdf ea_interp]|].
    { unfold kk. rnum. destruct (Rltb_spec ((xi - getR cd l) / (getR cd (l + 1) - getR cd l)) (1 / 2)) as [Q|Q]; [left|right]; (split; [reflexivity|]); [right; exact Q|]. split; [intros Hh; apply (proj2 Hfl) in Hh; discriminate|lra]. }
     split; [exact B2|]. split; [exact B3|]. split; [reflexivity|]. split; [exact Re|exact Ie].
Qed.

(** ** the joint density: its values and its marginals *)
Section Marginal.
  Variables (mu_p : Z -> res R) (m : Z -> R) (energy pdf : list R) (i : interpolation).
  Hypothesis Ii : i = Histogram \/ i = LinLin.
  Hypothesis I : increasing energy.
  Hypothesis Lp : sizeZ pdf = sizeZ energy.
  Hypothesis Hmu : forall k, (0 <= k < sizeZ energy)%Z -> mu_p k = Ok (m k).
  Definition joint_at (x : R) : R := match joint_pdf mu_p energy pdf i x with Ok p => p | _ => 0 end.
  Lemma joint_value k x : (0 <= k)%Z -> (k + 1 < sizeZ energy)%Z -> getR energy k < x < getR energy (k + 1) ->
    joint_pdf mu_p energy pdf i x = Ok (match i with Histogram => m k * getR pdf k
      | _ => mix ((x - getR energy k) / (getR energy (k + 1) - getR energy k)) (m k * getR pdf k) (m (k + 1)%Z * getR pdf (k + 1)) end).
  Proof.
    intros H1 H2 Hx. pose proof (joint_inside mu_p energy pdf i I Lp k x (m k) H1 H2 Hx (Hmu k ltac:(lia))) as J.
    destruct Ii as [-> | ->]; [exact J|]. apply J. apply Hmu. lia.
  Qed.
  Lemma joint_segment k : (0 <= k)%Z -> (k + 1 < sizeZ energy)%Z ->
    is_RInt joint_at (getR energy k) (getR energy (k + 1)) (seg_area i (getR energy k) (m k * getR pdf k) (getR energy (k + 1)) (m (k + 1)%Z * getR pdf (k + 1))).
  Proof.
    intros H1 H2. assert (L : getR energy k <= getR energy (k + 1)) by (apply I; lia). destruct (Req_dec (getR energy k) (getR energy (k + 1))) as [E|E].
    - rewrite E. replace (seg_area _ _ _ _ _) with 0 by (unfold seg_area; destruct i; ring). exact (@is_RInt_point R_NormedModule joint_at _).
    - apply is_RInt_ext with (fun x => interpolate i x (getR energy k) (m k * getR pdf k) (getR energy (k + 1)) (m (k + 1)%Z * getR pdf (k + 1))).
      + intros x Hx. rewrite Rmin_left, Rmax_right in Hx by lra. unfold joint_at. rewrite (joint_value k x H1 H2 Hx). match goal with |- ?a = ?b => change (@eq R a b) end.
        destruct Ii as [-> | ->]; cbn [interpolate]; [reflexivity|]. unfold linlin_interpolate, mix. rnum. field. lra.
      + replace (seg_area i (getR energy k) (m k * getR pdf k) (getR energy (k + 1)) (m (k + 1)%Z * getR pdf (k + 1))) with
          (integrate i (getR energy k) (getR energy (k + 1)) (getR energy k) (m k * getR pdf k) (getR energy (k + 1)) (m (k + 1)%Z * getR pdf (k + 1))).
        * destruct Ii as [-> | ->]; [apply histogram_integral|apply linlin_integral; lra].
        * destruct Ii as [-> | ->]; cbn [integrate seg_area]; unfold histogram_integrate, linlin_integrate; rnum; field; lra.
  Qed.
  Lemma joint_sum n : forall j acc, (0 <= j)%Z -> (j + Z.of_nat n < sizeZ energy)%Z -> exists s,
    angle_sum mu_p energy pdf i n j acc = Ok (acc + s) /\ is_RInt joint_at (getR energy j) (getR energy (j + Z.of_nat n)) s.
  Proof.
    induction n as [|n IH]; intros j acc H1 H2.
    - exists 0. split; [cbn [angle_sum]; f_equal; ring|]. change (Z.of_nat 0) with 0%Z. rewrite Z.add_0_r. exact (@is_RInt_point R_NormedModule joint_at _).
    - set (s0 := seg_area i (getR energy j) (m j * getR pdf j) (getR energy (j + 1)) (m (j + 1)%Z * getR pdf (j + 1))).
      destruct (IH (j + 1)%Z (acc + s0) ltac:(lia) ltac:(lia)) as (s & Es & Is). exists (s0 + s). split.
      + cbn [angle_sum]. rewrite (Hmu j) by lia. cbn [bind]. rewrite !atR by lia. cbn [bind].
        replace (Ok (acc + (s0 + s))) with (Ok (acc + s0 + s)) by (f_equal; ring). rewrite <- Es.
        clear Es Is. destruct Ii as [E | E]; rewrite E in *; [|rewrite (Hmu (j + 1)%Z) by lia; cbn [bind]]; (match goal with |- angle_sum _ _ _ _ _ _ ?u = angle_sum _ _ _ _ _ _ ?v => replace u with v; [reflexivity|] end); unfold s0; rewrite E; cbn [seg_area]; rnum; field.
      + replace (j + Z.of_nat (S n))%Z with (j + 1 + Z.of_nat n)%Z by lia. eapply Chasles_R; [apply joint_segment; lia|exact Is|reflexivity].
  Qed.
  Lemma joint_marginal : (1 <= sizeZ energy)%Z -> exists s, angle_pdf_of mu_p energy pdf i = Ok s /\ is_RInt joint_at (first_of energy) (last_of energy) s.
  Proof.
    intros Hn. unfold angle_pdf_of. destruct (length pdf) as [|n] eqn:L; [exfalso; unfold sizeZ in *; lia|].
    destruct (joint_sum n 0%Z 0 ltac:(lia)) as (s & Es & Is); [unfold sizeZ in *; lia|]. exists s. split.
    - change (@nofZ R NumR 0) with 0. rewrite Es. f_equal. ring.
    - unfold first_of, last_of. replace (sizeZ energy - 1)%Z with (0 + Z.of_nat n)%Z by (unfold sizeZ in *; lia). exact Is.
  Qed.
End Marginal.

Definition ea_angle (t : eat R) (k : Z) : pctable R := nth (Z.to_nat k) (ea_angles t) (mkPC [] [] [] Histogram).
Definition pdf_at (t : pctable R) (x : R) : R := match pc_pdf t x with Ok p => p | _ => 0 end.
Lemma ea_angle_at t k : valid_eat t -> (0 <= k < sizeZ (ea_energy t))%Z -> atZ (ea_angles t) k = Ok (ea_angle t k) /\ valid_pc (ea_angle t k).
Proof.
  intros [V Sz VA] Hk. assert (E : atZ (ea_angles t) k = Ok (ea_angle t k)) by (apply atZ_nth; lia). split; [exact E|apply VA; eapply atZ_In; exact E].
Qed.
Lemma pdf_at_ok t x : valid_pc t -> pc_pdf t x = Ok (pdf_at t x).
Proof. intros V. destruct (valid_pdf_ok t x V) as (p & E & _). unfold pdf_at. rewrite E. reflexivity. Qed.
Lemma ea_mu_value t mu k : valid_eat t -> (0 <= k < sizeZ (ea_energy t))%Z -> (let! a := atZ (ea_angles t) k in pc_pdf a mu) = Ok (pdf_at (ea_angle t k) mu).
Proof. intros V Hk. destruct (ea_angle_at t k V Hk) as [E Va]. rewrite E. cbn [bind]. apply pdf_at_ok, Va. Qed.

Lemma valid_sizes v p c i : valid_table v p c i -> sizeZ p = sizeZ v /\ sizeZ c = sizeZ v.
Proof. intros V. destruct V; unfold sizeZ; split; congruence. Qed.

(** EnergyAngleTable: the value inside a segment *)
Lemma ea_pdf_value t mu k x : valid_eat t -> (0 <= k)%Z -> (k + 1 < sizeZ (ea_energy t))%Z -> getR (ea_energy t) k < x < getR (ea_energy t) (k + 1) ->
  ea_pdf2 t mu x = Ok (match ea_interp t with Histogram => pdf_at (ea_angle t k) mu * getR (ea_pdf t) k
    | _ => mix ((x - getR (ea_energy t) k) / (getR (ea_energy t) (k + 1) - getR (ea_energy t) k)) (pdf_at (ea_angle t k) mu * getR (ea_pdf t) k) (pdf_at (ea_angle t (k + 1)) mu * getR (ea_pdf t) (k + 1)) end).
Proof.
  intros V H1 H2 Hx. pose proof (ve_table t V) as VT. unfold ea_pdf2. apply (joint_value _ (fun j => pdf_at (ea_angle t j) mu)); try assumption.
  - apply (vt_interp _ _ _ _ VT).
  - apply (vt_values _ _ _ _ VT).
  - apply (valid_sizes _ _ _ _ VT).
  - intros j Hj. apply ea_mu_value; assumption.
Qed.
Lemma k_pdf_value t mu k x : valid_kt t -> (0 <= k)%Z -> (k + 1 < sizeZ (k_energy t))%Z -> getR (k_energy t) k < x < getR (k_energy t) (k + 1) ->
  k_pdf2 t mu x = Ok (match k_interp t with Histogram => mu_p mu (getR (k_A t) k) (getR (k_R t) k) * getR (k_pdf t) k
    | _ => mix ((x - getR (k_energy t) k) / (getR (k_energy t) (k + 1) - getR (k_energy t) k)) (mu_p mu (getR (k_A t) k) (getR (k_R t) k) * getR (k_pdf t) k)
             (mu_p mu (getR (k_A t) (k + 1)) (getR (k_R t) (k + 1)) * getR (k_pdf t) (k + 1)) end).
Proof.
  intros V H1 H2 Hx. pose proof (vk_table t V) as VT. unfold k_pdf2. apply (joint_value _ (fun j => mu_p mu (getR (k_A t) j) (getR (k_R t) j))); try assumption.
  - apply (vt_interp _ _ _ _ VT).
  - apply (vt_values _ _ _ _ VT).
  - apply (valid_sizes _ _ _ _ VT).
  - intros j Hj. apply k_mu_ok; assumption.
Qed.

(** the angular density is the integral of the joint one over the outgoing energy *)
Lemma ea_marginal_energy t mu : valid_eat t -> exists s g, ea_angle_pdf t mu = Ok s /\ is_RInt g (first_of (ea_energy t)) (last_of (ea_energy t)) s /\
  (forall E, ea_interp t = Histogram \/ E <> last_of (ea_energy t) -> ea_pdf2 t mu E = Ok (g E)).
Proof.
  intros V. pose proof (ve_table t V) as VT. set (mp := fun i => let! a := atZ (ea_angles t) i in pc_pdf a mu).
  destruct (joint_marginal mp (fun j => pdf_at (ea_angle t j) mu) (ea_energy t) (ea_pdf t) (ea_interp t)) as (s & Es & Is).
  - apply (vt_interp _ _ _ _ VT).
  - apply (vt_values _ _ _ _ VT).
  - apply (valid_sizes _ _ _ _ VT).
  - intros j Hj. apply ea_mu_value; assumption.
  - apply (vt_nonempty _ _ _ _ VT).
  - eexists s, _. split; [exact Es|]. split; [exact Is|]. intros E HE. destruct (ea_pdf_safe t mu E V HE) as [p Ep]. unfold joint_at. unfold ea_pdf2 in *. fold mp in Ep |- *. rewrite Ep. reflexivity.
Qed.
Lemma k_marginal_energy t mu : valid_kt t -> exists s g, k_angle_pdf t mu = Ok s /\ is_RInt g (first_of (k_energy t)) (last_of (k_energy t)) s /\
  (forall E, k_interp t = Histogram \/ E <> last_of (k_energy t) -> k_pdf2 t mu E = Ok (g E)).
Proof.
  intros V. pose proof (vk_table t V) as VT.
  destruct (joint_marginal (k_mu t mu) (fun j => mu_p mu (getR (k_A t) j) (getR (k_R t) j)) (k_energy t) (k_pdf t) (k_interp t)) as (s & Es & Is).
  - apply (vt_interp _ _ _ _ VT).
  - apply (vt_values _ _ _ _ VT).
  - apply (valid_sizes _ _ _ _ VT).
  - intros j Hj. apply k_mu_ok; assumption.
  - apply (vt_nonempty _ _ _ _ VT).
  - eexists s, _. split; [exact Es|]. split; [exact Is|]. intros E HE. destruct (k_pdf_safe t mu E V HE) as [p Ep]. unfold joint_at. unfold k_pdf2 in *. rewrite Ep. reflexivity.
Qed.

(** and its integral over the cosine is the energy density *)
Lemma mix_integral (i : interpolation) f (g1 g2 : R -> R) p1 p2 v a b : is_RInt g1 a b 1 -> is_RInt g2 a b 1 -> v = match i with Histogram => p1 | _ => mix f p1 p2 end ->
  is_RInt (fun mu => match i with Histogram => g1 mu * p1 | _ => mix f (g1 mu * p1) (g2 mu * p2) end) a b v.
Proof.
  intros I1 I2 ->. destruct i.
  1: apply is_RInt_ext with (fun mu => p1 * g1 mu); [intros; match goal with |- ?a = ?b => change (@eq R a b) end; ring|]; eapply iR_val; [|apply iR_scal, I1]; ring.
  all: (apply is_RInt_ext with (fun mu => ((1 - f) * p1) * g1 mu + (f * p2) * g2 mu); [intros; match goal with |- ?a = ?b => change (@eq R a b) end; unfold mix; ring|]; eapply iR_val; [|apply iR_plus; apply iR_scal; eassumption]; unfold mix; ring).
Qed.
Lemma energy_dens v p c i k x : valid_table v p c i -> (0 <= k)%Z -> (k + 1 < sizeZ v)%Z -> getR v k < x < getR v (k + 1) ->
  pc_pdf (mkPC v p c i) x = Ok (match i with Histogram => getR p k | _ => mix ((x - getR v k) / (getR v (k + 1) - getR v k)) (getR p k) (getR p (k + 1)) end).
Proof.
  intros V H1 H2 Hx. change (mkPC v p c i) with (tbl v p c i). rewrite (dens_ok _ _ _ _ V). f_equal. rewrite (dens_open _ _ _ _ V k x H1 H2 Hx). unfold seg.
  destruct (vt_interp _ _ _ _ V) as [-> | ->]; cbn [interpolate]; [reflexivity|]. unfold linlin_interpolate, mix. rnum. field. lra.
Qed.
Lemma ea_marginal_cosine t k x : valid_eat t -> (forall a, In a (ea_angles t) -> first_of (pc_values a) = -1 /\ last_of (pc_values a) = 1) ->
  (0 <= k)%Z -> (k + 1 < sizeZ (ea_energy t))%Z -> getR (ea_energy t) k < x < getR (ea_energy t) (k + 1) ->
  exists g v, (forall mu, ea_pdf2 t mu x = Ok (g mu)) /\ is_RInt g (-1) 1 v /\ pc_pdf (mkPC (ea_energy t) (ea_pdf t) (ea_cdf t) (ea_interp t)) x = Ok v.
Proof.
  intros V HA H1 H2 Hx. pose proof (ve_table t V) as VT. eexists _, _. split; [intros mu; apply (ea_pdf_value t mu k x V H1 H2 Hx)|]. split; [|apply energy_dens; eassumption].
  assert (One : forall j, (0 <= j < sizeZ (ea_energy t))%Z -> is_RInt (pdf_at (ea_angle t j)) (-1) 1 1).
  { intros j Hj. destruct (ea_angle_at t j V Hj) as [Ej Vj]. destruct (HA _ (atZ_In _ _ _ Ej)) as [A1 A2]. unfold valid_pc in Vj. unfold first_of, last_of in *. 
    apply is_RInt_ext with (dens (pc_values (ea_angle t j)) (pc_pdfs (ea_angle t j)) (pc_cdf (ea_angle t j)) (pc_interp (ea_angle t j))).
    - intros y _. unfold dens, pdf_at, tbl. destruct (ea_angle t j); reflexivity.
    - pose proof (vt_nonempty _ _ _ _ Vj). pose proof (integral_from_0 _ _ _ _ Vj (sizeZ (pc_values (ea_angle t j)) - 1)%Z ltac:(lia)) as J.
      pose proof (vt_last _ _ _ _ Vj) as L. rewrite (proj2 (valid_sizes _ _ _ _ Vj)) in L. rewrite L, A1, A2 in J. exact J. }
  apply mix_integral; [apply One; lia|apply One; lia|reflexivity].
Qed.
Lemma k_marginal_cosine t k x : valid_kt t -> (forall a, In a (k_A t) -> a <> 0) ->
  (0 <= k)%Z -> (k + 1 < sizeZ (k_energy t))%Z -> getR (k_energy t) k < x < getR (k_energy t) (k + 1) ->
  exists g v, (forall mu, k_pdf2 t mu x = Ok (g mu)) /\ is_RInt g (-1) 1 v /\ pc_pdf (mkPC (k_energy t) (k_pdf t) (k_cdf t) (k_interp t)) x = Ok v.
Proof.
  intros V HA H1 H2 Hx. pose proof (vk_table t V) as VT. eexists _, _. split; [intros mu; apply (k_pdf_value t mu k x V H1 H2 Hx)|]. split; [|apply energy_dens; eassumption].
  assert (One : forall j, (0 <= j < sizeZ (k_energy t))%Z -> is_RInt (fun mu => @mu_p R NumR mu (getR (k_A t) j) (getR (k_R t) j)) (-1) 1 1).
  { intros j Hj. assert (getR (k_A t) j <> 0) by (apply HA, getR_In; rewrite (vk_A t V); lia).
    apply is_RInt_ext with (kalbach_density (getR (k_A t) j) (getR (k_R t) j)); [intros y _; symmetry; apply mu_p_density; assumption|apply kalbach_normalised; assumption]. }
  apply (mix_integral (k_interp t) _ (fun mu => @mu_p R NumR mu (getR (k_A t) k) (getR (k_R t) k)) (fun mu => @mu_p R NumR mu (getR (k_A t) (k + 1)) (getR (k_R t) (k + 1))));
    [apply One; lia|apply One; lia|reflexivity].
Qed.

(** ** what the constructors accept *)
Lemma setZ_last (c : list R) v : (1 <= sizeZ c)%Z -> setZ c (sizeZ c - 1) v = Ok (removelast c ++ [v]).
Proof.
  intros Hn. unfold setZ. replace ((0 <=? sizeZ c - 1)%Z && (sizeZ c - 1 <? sizeZ c)%Z) with true by lia. f_equal.
  destruct c as [|a c] using rev_ind; [cbn in Hn; lia|]. rewrite removelast_last. unfold sizeZ. rewrite app_length. cbn [length].
  replace (Z.to_nat (Z.of_nat (length c + 1) - 1)) with (length c) by lia. clear.
  induction c as [|b c IH]; [reflexivity|]. cbn. f_equal. exact IH.
Qed.
Lemma fix_last_iff (c c' : list R) : (1 <= sizeZ c)%Z -> fix_last c = Ok c' <-> Rabs (getR c (sizeZ c - 1) - 1) < 1 / 10000000 /\ c' = removelast c ++ [1].
Proof.
  intros Hn. unfold fix_last. rewrite atR by lia. cbn [bind]. change (@neqb R NumR) with Reqb. change (@nofZ R NumR 1) with 1. change (@nlit R NumR 1 10000000) with (1 / 10000000). change (@nltb R NumR) with Rltb. change (@nabs R NumR) with Rabs. change (@nsub R NumR) with Rminus.
  destruct (Reqb_spec (getR c (sizeZ c - 1)) 1) as [E|E]; cbn [negb].
  - assert (removelast c ++ [1] = c) as ->.
    { destruct c as [|a c] using rev_ind; [cbn in Hn; lia|]. rewrite removelast_last. f_equal. f_equal. unfold sizeZ in E. rewrite app_length in E. cbn [length] in E.
      unfold getR in E. replace (Z.to_nat (Z.of_nat (length c + 1) - 1)) with (length c) in E by lia. rewrite app_nth2, Nat.sub_diag in E by lia. cbn in E. symmetry. exact E. }
    rewrite E. replace (1 - 1) with 0 by ring. rewrite Rabs_R0. split; [intros H; apply Ok_eq in H; split; [lra|congruence]|intros [_ ->]; reflexivity].
  - destruct (Rltb_spec (Rabs (getR c (sizeZ c - 1) - 1)) (1 / 10000000)) as [Q|Q].
    + rewrite setZ_last by lia. split; [intros H; apply Ok_eq in H; split; [exact Q|congruence]|intros [_ ->]; reflexivity].
    + split; [discriminate|intros [H _]; lra].
Qed.
(** a tabulated density in the sense of the constructors: increasing abscissae, a CDF increasing from 0 to 1 (to 1e-7), a nonnegative PDF *)
Record table_checks (energy pdf cdf : list R) (i : interpolation) : Prop := {
  tc_interp : i = Histogram \/ i = LinLin;
  tc_energy : increasing energy;
  tc_cdf : increasing cdf;
  tc_first : getR cdf 0 = 0;
  tc_last : Rabs (getR cdf (sizeZ cdf - 1) - 1) < 1 / 10000000;
  tc_pdf : forall p, In p pdf -> 0 <= p }.
Lemma checks_first cdf : getR cdf 0 = 0 -> Rabs (getR cdf (sizeZ cdf - 1) - 1) < 1 / 10000000 -> (1 <= sizeZ cdf)%Z.
Proof.
  intros H1 H2. destruct cdf as [|a c]; [|rewrite sizeZ_cons; pose proof (sizeZ_nonneg c); lia].
  change (getR [] (sizeZ [] - 1)) with 0 in H2. rewrite Rabs_left in H2; lra.
Qed.
Lemma no_negative (pdf : list R) : negb (existsb (fun p => @nltb R NumR p 0) pdf) = true <-> (forall p, In p pdf -> 0 <= p).
Proof.
  change (existsb (fun p => nltb p 0) pdf) with (@M_Grid.any_negative R NumR pdf). rewrite Bool.negb_true_iff. apply any_negative_R.
Qed.
Lemma table_interp_iff i : table_interp i = true <-> i = Histogram \/ i = LinLin.
Proof. destruct i; cbn; intuition discriminate. Qed.
Lemma make_eat_iff energy pdf cdf angles i t : (1 <= sizeZ cdf)%Z ->
  make_eat energy pdf cdf angles i = Ok t <-> table_checks energy pdf cdf i /\ t = mkEAT energy pdf (removelast cdf ++ [1]) angles i.
Proof.
  intros Hn. unfold make_eat. rewrite atR by lia. cbn [bind]. change (@neqb R NumR) with Reqb. change (@nofZ R NumR 0) with 0.
  split.
  - intros H. apply bind_ok in H as (? & G1 & H). apply guard_ok, table_interp_iff in G1. apply bind_ok in H as (? & G2 & H). apply guard_ok, is_sorted_increasing in G2.
    apply bind_ok in H as (? & G3 & H). apply guard_ok, is_sorted_increasing in G3. destruct (Reqb_spec (getR cdf 0) 0) as [G4|]; [|discriminate]. cbn [negb] in H.
    apply bind_ok in H as (c' & G5 & H). apply (fix_last_iff cdf c' Hn) in G5 as [G5 ->]. apply bind_ok in H as (? & G6 & H). apply guard_ok in G6. pose proof (proj1 (no_negative pdf) G6) as G6p.
    apply Ok_eq in H. subst t. split; [constructor; assumption|reflexivity].
  - intros [[C1 C2 C3 C4 C5 C6] ->]. apply table_interp_iff in C1. apply is_sorted_increasing in C2, C3. pose proof (proj2 (no_negative pdf) C6) as C7. unfold guard. rewrite C1, C2, C3. cbn [bind].
    rewrite C4. replace (Reqb 0 0) with true by (symmetry; apply Reqb_true; reflexivity). cbn [negb]. rewrite (proj2 (fix_last_iff cdf _ Hn) (conj C5 eq_refl)). cbn [bind]. rewrite C7. reflexivity.
Qed.
Lemma make_kt_iff energy pdf cdf r a i t : (1 <= sizeZ cdf)%Z ->
  make_kt energy pdf cdf r a i = Ok t <-> table_checks energy pdf cdf i /\ sizeZ pdf = sizeZ energy /\ sizeZ cdf = sizeZ energy /\ sizeZ r = sizeZ energy /\ sizeZ a = sizeZ energy /\
    t = mkKT energy pdf (removelast cdf ++ [1]) r a i.
Proof.
  intros Hn. unfold make_kt. rewrite atR by lia. cbn [bind]. change (@neqb R NumR) with Reqb. change (@nofZ R NumR 0) with 0.
  split.
  - intros H. apply bind_ok in H as (? & G1 & H). apply guard_ok, table_interp_iff in G1. apply bind_ok in H as (? & G0 & H). apply guard_ok in G0.
    apply bind_ok in H as (? & G2 & H). apply guard_ok, is_sorted_increasing in G2.
    apply bind_ok in H as (? & G3 & H). apply guard_ok, is_sorted_increasing in G3. destruct (Reqb_spec (getR cdf 0) 0) as [G4|]; [|discriminate]. cbn [negb] in H.
    apply bind_ok in H as (c' & G5 & H). apply (fix_last_iff cdf c' Hn) in G5 as [G5 ->]. apply bind_ok in H as (? & G6 & H). apply guard_ok in G6. pose proof (proj1 (no_negative pdf) G6) as G6p.
    apply Ok_eq in H. subst t. split; [constructor; assumption|]. unfold sizeZ. repeat (split; [lia|]). reflexivity.
  - intros ([C1 C2 C3 C4 C5 C6] & S1 & S2 & S3 & S4 & ->). apply table_interp_iff in C1. apply is_sorted_increasing in C2, C3. pose proof (proj2 (no_negative pdf) C6) as C7. unfold guard. rewrite C1, C2, C3.
    replace (_ && _) with true by (unfold sizeZ in *; lia). cbn [bind].
    rewrite C4. replace (Reqb 0 0) with true by (symmetry; apply Reqb_true; reflexivity). cbn [negb]. rewrite (proj2 (fix_last_iff cdf _ Hn) (conj C5 eq_refl)). cbn [bind]. rewrite C7. reflexivity.
Qed.
