(** * EnergyAngleTable, TabularEnergyAngle, KalbachTable, Kalbach *)
From Coquelicot Require Import Coquelicot.
From Verif Require Import Base NumR L_Search L_SearchR M_Interp M_PC S_PC L_PC L_PCR M_OutE S_OutE L_Interp2 L_Legendre L_Angle L_OutE.
From Coq Require Import ZifyBool ZifyNat.
Local Open Scope R_scope.

(** ** joint density of a table *)
Section Joint.
  Variables (mu_p : Z -> res R) (energy pdf : list R) (i : interpolation).
  Hypothesis I : increasing energy.
  Hypothesis Lp : sizeZ pdf = sizeZ energy.
  Hypothesis Hmu : forall k, (0 <= k < sizeZ energy)%Z -> exists a, mu_p k = Ok a.
  Lemma joint_outside x : (1 <= sizeZ energy)%Z -> x < first_of energy \/ last_of energy < x -> joint_pdf mu_p energy pdf i x = Ok 0.
  Proof. clear Hmu Lp.
    intros Hn Hx. unfold joint_pdf. destruct (lower_boundR energy x I) as (k & Ek & K0 & K1 & K2). rewrite Ek. cbn [bind]. unfold first_of, last_of in Hx.
    destruct (k =? sizeZ energy)%Z eqn:E1; [reflexivity|]. rewrite frontR_R by lia. cbn [bind]. change (@nltb R NumR) with Rltb.
    assert (x <= getR energy k) by (apply K2; lia). assert (getR energy k <= getR energy (sizeZ energy - 1)) by (apply I; lia).
    destruct Hx as [Hx|Hx]; [|lra]. assert (k = 0)%Z as ->.
    { destruct (Z.eq_dec k 0); [assumption|]. specialize (K1 0%Z ltac:(lia)). lra. }
    cbn [Z.eqb andb]. rewrite (proj2 (Rltb_true _ _) Hx). reflexivity.
  Qed.
  Lemma joint_inside k x a1 : (0 <= k)%Z -> (k + 1 < sizeZ energy)%Z -> getR energy k < x < getR energy (k + 1) -> mu_p k = Ok a1 ->
    match i with
    | Histogram => joint_pdf mu_p energy pdf i x = Ok (a1 * getR pdf k)
    | _ => forall a2, mu_p (k + 1)%Z = Ok a2 -> joint_pdf mu_p energy pdf i x =
       Ok (mix ((x - getR energy k) / (getR energy (k + 1) - getR energy k)) (a1 * getR pdf k) (a2 * getR pdf (k + 1)))
    end.
  Proof. clear Hmu.
    intros K1 K2 Hx H1.
    assert (Lb : lower_bound energy x = Ok (k + 1)%Z).
    { apply (lower_boundR_eq energy x (k + 1) I). split; [lia|]. split; intros j Hj.
      - assert (getR energy j <= getR energy k) by (apply I; lia). lra.
      - assert (getR energy (k + 1) <= getR energy j) by (apply I; lia). lra. }
    assert (J : joint_pdf mu_p energy pdf i x = match i with
       | Histogram => let! a := mu_p k in let! p := atZ pdf k in Ok (a * p)
       | _ => let! e1 := atZ energy k in let! e2 := atZ energy (k + 1)%Z in let! a2 := mu_p (k + 1)%Z in let! p2 := atZ pdf (k + 1)%Z in
              let! a1 := mu_p k in let! p1 := atZ pdf k in Ok (0 + (x - e1) / (e2 - e1) * a2 * p2 + (1 - (x - e1) / (e2 - e1)) * a1 * p1) end).
    { unfold joint_pdf. rewrite Lb. cbn [bind]. replace (k + 1 =? sizeZ energy)%Z with false by lia. rewrite frontR_R by lia. cbn [bind].
      replace (k + 1 =? 0)%Z with false by lia. cbn [andb]. rewrite (atR energy (k + 1)) by lia. cbn [bind]. change (@neqb R NumR) with Reqb.
      replace (Reqb x (getR energy (k + 1))) with false by (symmetry; apply Reqb_false; lra). cbn [negb]. replace (k + 1 - 1)%Z with k by lia.
      destruct i; rewrite ?(atR energy) by lia; reflexivity. }
    rewrite J. destruct i; rewrite H1; cbn [bind]; try (rewrite atR by lia; reflexivity); intros a2 H2; rewrite !(atR energy) by lia; cbn [bind]; rewrite H2; cbn [bind];
      rewrite !(atR pdf) by lia; cbn [bind]; unfold mix; f_equal; ring.
  Qed.
  Lemma joint_safe x : i = Histogram \/ x <> last_of energy -> exists p, joint_pdf mu_p energy pdf i x = Ok p.
  Proof.
    intros H. unfold joint_pdf. destruct (lower_boundR energy x I) as (k & Ek & K0 & K1 & K2). rewrite Ek. cbn [bind].
    destruct (k =? sizeZ energy)%Z eqn:E1; [eauto|]. rewrite frontR_R by lia. cbn [bind]. change (@nltb R NumR) with Rltb.
    destruct ((k =? 0)%Z && Rltb x (getR energy 0)) eqn:E2; [eauto|]. rewrite atR by lia. cbn [bind]. change (@neqb R NumR) with Reqb.
    set (l := if negb (Reqb x (getR energy k)) then (k - 1)%Z else k).
    assert (Hl : (0 <= l < sizeZ energy)%Z /\ (i <> Histogram -> (l + 1 < sizeZ energy)%Z)).
    { unfold l. destruct (Reqb_spec x (getR energy k)) as [Q|Q]; cbn [negb].
      - split; [lia|]. intros Hi. destruct H as [H|H]; [contradiction|]. destruct (Z.eq_dec (k + 1) (sizeZ energy)) as [Q1|]; [|lia].
        exfalso. apply H. unfold last_of. rewrite <- Q1. replace (k + 1 - 1)%Z with k by lia. exact Q.
      - destruct (Z.eq_dec k 0) as [->|]; [|lia]. exfalso. specialize (K2 0%Z ltac:(lia)). cbn [Z.eqb andb] in E2. apply Rltb_false in E2. lra. }
    clearbody l. destruct Hl as [Hl1 Hl2]. destruct (Hmu l Hl1) as [a1 A1].
    destruct i; [rewrite A1; cbn [bind]; rewrite atR by lia; cbn [bind]; eauto|..]; specialize (Hl2 ltac:(discriminate)); destruct (Hmu (l + 1)%Z ltac:(lia)) as [a2 A2];
      rewrite !(atR energy) by lia; cbn [bind]; rewrite A2; cbn [bind]; rewrite !(atR pdf) by lia; cbn [bind]; rewrite A1; cbn [bind]; eauto.
  Qed.
  Lemma joint_last_ub : strictly_increasing energy -> (1 <= sizeZ energy)%Z -> i <> Histogram -> joint_pdf mu_p energy pdf i (last_of energy) = UB.
  Proof. clear Hmu Lp.
    intros S Hn Hi. unfold joint_pdf. rewrite (lower_boundR_eq energy _ (sizeZ energy - 1) I).
    - cbn [bind]. replace (sizeZ energy - 1 =? sizeZ energy)%Z with false by lia. rewrite frontR_R by lia. cbn [bind]. change (@nltb R NumR) with Rltb.
      replace ((sizeZ energy - 1 =? 0)%Z && Rltb (last_of energy) (getR energy 0)) with false.
      2: { destruct (sizeZ energy - 1 =? 0)%Z eqn:E; [|reflexivity]. symmetry. apply Rltb_false. unfold last_of. replace (sizeZ energy - 1)%Z with 0%Z by lia. lra. }
      rewrite atR by lia. cbn [bind]. change (@neqb R NumR) with Reqb. rewrite (proj2 (Reqb_true _ _) (eq_refl : last_of energy = getR energy (sizeZ energy - 1))). cbn [negb].
      rewrite (atR energy) by lia. rewrite (atZ_out energy (sizeZ energy - 1 + 1)) by lia. destruct i; [contradiction|..]; reflexivity.
    - split; [lia|]. split; intros j Hj; [apply S; lia|]. unfold last_of. replace j with (sizeZ energy - 1)%Z by lia. lra.
  Qed.
End Joint.

(** ** EnergyAngleTable *)

Lemma ea_sample_spec t xi x2 ds : valid_eat t -> 0 < xi < 1 -> 0 <= x2 < 1 ->
  exists a k m e, (0 <= k < sizeZ (ea_energy t))%Z /\ atZ (ea_angles t) k = Ok a /\ pc_sample a x2 = Ok m /\
    ea_sample t (xi :: x2 :: ds) = Ok ((@clamp_mu R NumR m, e), ds) /\ first_of (ea_energy t) <= e <= last_of (ea_energy t) /\
    is_RInt (dens (ea_energy t) (ea_pdf t) (ea_cdf t) (ea_interp t)) (first_of (ea_energy t)) e xi.
Proof.
  intros VE Hx X2. destruct VE as [V Sz VA]. destruct t as [en pd cd an i]. cbn [ea_energy ea_pdf ea_cdf ea_angles ea_interp] in *.
  pose proof (cdf_increasing _ _ _ _ V) as Ic. assert (Hc : sizeZ cd = sizeZ en) by (destruct V; unfold sizeZ; congruence). assert (Hp : sizeZ pd = sizeZ en) by (destruct V; unfold sizeZ; congruence).
  destruct (lower_boundR cd xi Ic) as (k & Ek & K0 & K1 & K2).
  assert (Kn : (k < sizeZ en)%Z).
  { destruct (Z_lt_dec k (sizeZ en)); [assumption|]. specialize (K1 (sizeZ cd - 1)%Z ltac:(destruct V; lia)). rewrite (vt_last _ _ _ _ V) in K1. lra. }
  assert (Kp : (0 < k)%Z). { destruct (Z_lt_dec 0 k); [assumption|]. specialize (K2 0%Z ltac:(lia)). rewrite (vt_first _ _ _ _ V) in K2. lra. }
  assert (exists l, k = (l + 1)%Z) as [l ->] by (exists (k - 1)%Z; lia).
  assert (Cx : getR cd l < xi <= getR cd (l + 1)) by (split; [apply K1; lia|apply K2; lia]).
  destruct (seg_sample _ _ _ _ V l xi ltac:(lia) ltac:(lia) Cx) as (e & Es & Ie & Be).
  assert (Ien : increasing en) by (destruct V; assumption).
  assert (Re : first_of en <= e <= last_of en).
  { unfold first_of, last_of. assert (getR en 0 <= getR en l) by (apply Ien; lia). assert (getR en (l + 1) <= getR en (sizeZ en - 1)) by (apply Ien; lia). lra. }
  unfold segf in Es. cbn [pc_interp pc_pdfs tbl] in Es. fold (@tbl en pd cd i) in *.
  assert (Fin : forall kk, kk = l \/ kk = (l + 1)%Z -> exists a m, (0 <= kk < sizeZ en)%Z /\ atZ an kk = Ok a /\ pc_sample a x2 = Ok m).
  { intros kk Hk. assert (0 <= kk < sizeZ en)%Z by lia. destruct (atZ_ok an kk) as [a Ea]; [lia|]. destruct (valid_sample a x2 (VA a (atZ_In' _ _ _ Ea)) X2) as (m & Em & _). eauto. }
  unfold ea_sample, rbind, rlift, rret, draw. cbn [ea_energy ea_pdf ea_cdf ea_angles ea_interp]. rewrite Ek. cbn [bind]. replace (l + 1 - 1)%Z with l by lia.
  unfold ea_pc. cbn [ea_energy ea_pdf ea_cdf ea_angles ea_interp]. change (mkPC en pd cd i) with (@tbl en pd cd i).
  rewrite !(atR pd) by lia. rewrite !(atR cd) by lia.
  set (flat := match i with Histogram => true | _ => Reqb (getR pd l) (getR pd (l + 1)) end).
  assert (Es2 : (if flat then pc_histogram (tbl en pd cd i) xi l else pc_linear (tbl en pd cd i) xi l) = Ok e).
  { rewrite <- Es. unfold flat. destruct i; [reflexivity|..]; rewrite !(atR pd) by lia; cbn [bind]; reflexivity. }
  replace (match i with Histogram => Ok true | _ => let! p1 := Ok (getR pd l) in let! p2 := Ok (getR pd (l + 1)) in Ok (neqb p1 p2) end) with (@Ok bool flat) by (unfold flat; destruct i; reflexivity).
  cbn [bind]. clearbody flat. destruct flat.
  - rewrite Es2. cbn [bind]. destruct (Fin l (or_introl eq_refl)) as (a & m & B1 & B2 & B3). rewrite B2. cbn [bind]. rewrite B3. cbn [bind].
    exists a, l, m, e. split; [exact B1|]. split; [exact B2|]. split; [exact B3|]. split; [reflexivity|]. split; [exact Re|exact Ie].
  - rewrite Es2. cbn [bind]. set (kk := if nltb _ _ then l else (l + 1)%Z). destruct (Fin kk) as (a & m & B1 & B2 & B3); [unfold kk; match goal with |- context [if ?b then _ else _] => destruct b end; auto|].
    rewrite B2. cbn [bind]. rewrite B3. cbn [bind]. exists a, kk, m, e. split; [exact B1|]. split; [exact B2|]. split; [exact B3|]. split; [reflexivity|]. split; [exact Re|exact Ie].
Qed.
(** the draw 0 reads index -1, for every table *)
Lemma ea_sample_zero t ds : valid_eat t -> ea_sample t (0 :: ds) = UB.
Proof.
  intros [V Sz VA]. destruct t as [en pd cd an i]. cbn [ea_energy ea_pdf ea_cdf ea_angles ea_interp] in *.
  assert (Hc : sizeZ cd = sizeZ en) by (destruct V; unfold sizeZ; congruence). pose proof (vt_nonempty _ _ _ _ V) as Hn.
  unfold ea_sample, rbind, rlift, rret, draw. cbn [ea_energy ea_pdf ea_cdf ea_angles ea_interp]. rewrite (lower_boundR_eq cd 0 0 (cdf_increasing _ _ _ _ V)).
  - cbn [bind]. change (0 - 1)%Z with (-1)%Z. destruct i; reflexivity.
  - split; [lia|]. split; intros j Hj; [lia|]. pose proof (cdf_increasing _ _ _ _ V 0%Z j ltac:(lia) ltac:(lia) ltac:(lia)). rewrite (vt_first _ _ _ _ V) in H. lra.
Qed.
Lemma ea_mu_ok t mu k : valid_eat t -> (0 <= k < sizeZ (ea_energy t))%Z -> exists a, (let! a := atZ (ea_angles t) k in pc_pdf a mu) = Ok a.
Proof.
  intros [V Sz VA] Hk. destruct (atZ_ok (ea_angles t) k) as [a Ea]; [lia|]. rewrite Ea. cbn [bind]. destruct (valid_pdf_ok a mu (VA a (atZ_In' _ _ _ Ea))) as (p & -> & _). eauto.
Qed.
Lemma ea_pdf_safe t mu E_out : valid_eat t -> ea_interp t = Histogram \/ E_out <> last_of (ea_energy t) -> exists p, ea_pdf2 t mu E_out = Ok p.
Proof.
  intros V H. assert (L : sizeZ (ea_pdf t) = sizeZ (ea_energy t)) by (destruct (ve_table t V); unfold sizeZ; congruence).
  unfold ea_pdf2. apply joint_safe; first [exact H|exact L|apply (vt_values _ _ _ _ (ve_table t V))|intros; apply ea_mu_ok; assumption].
Qed.
Lemma ea_pdf_last_ub t mu : valid_eat t -> strictly_increasing (ea_energy t) -> ea_interp t = LinLin -> ea_pdf2 t mu (last_of (ea_energy t)) = UB.
Proof.
  intros V S Hi. apply joint_last_ub; [apply (vt_values _ _ _ _ (ve_table t V))|exact S|apply (vt_nonempty _ _ _ _ (ve_table t V))|rewrite Hi; discriminate].
Qed.
Lemma ea_pdf_outside t mu E_out : valid_eat t -> E_out < first_of (ea_energy t) \/ last_of (ea_energy t) < E_out -> ea_pdf2 t mu E_out = Ok 0.
Proof. intros V H. apply joint_outside; [apply (vt_values _ _ _ _ (ve_table t V))|apply (vt_nonempty _ _ _ _ (ve_table t V))|exact H]. Qed.

(** ** TabularEnergyAngle *)
Lemma make_tea_inv energy (tables : list (eat R)) d : make_tea energy tables = Ok d -> increasing energy /\ sizeZ tables = sizeZ energy /\ d = mkTEA energy tables.
Proof.
  unfold make_tea. intros M. apply bind_ok in M as (? & G2 & M). apply guard_ok in G2. apply is_sorted_increasing in G2.
  apply bind_ok in M as (? & G1 & M). apply guard_ok in G1. apply Nat.eqb_eq in G1. injection M as <-. unfold sizeZ. rewrite G1. auto.
Qed.
Lemma limits_gen {tbl} (en : tbl -> list R) mn mx tables l f : (forall t, mn t = frontR (en t)) -> (forall t, mx t = backR (en t)) ->
  (0 <= l)%Z -> (l + 1 < sizeZ tables)%Z -> (forall t, In t tables -> (1 <= sizeZ (en t))%Z) -> exists t1 t2, atZ tables l = Ok t1 /\ atZ tables (l + 1) = Ok t2 /\
  limits mn mx tables l f = Ok (let a t := first_of (en t) in let b t := last_of (en t) in mkU t1 (a t1) (b t1) t2 (a t2) (b t2) (mix f (a t1) (a t2)) (mix f (b t1) (b t2))).
Proof.
  intros Hmn Hmx H1 H2 V. destruct (atZ_ok tables l) as [t1 E1]; [lia|]. destruct (atZ_ok tables (l + 1)) as [t2 E2]; [lia|]. exists t1, t2. split; [exact E1|]. split; [exact E2|].
  pose proof (V t1 (atZ_In' _ _ _ E1)). pose proof (V t2 (atZ_In' _ _ _ E2)).
  unfold limits. rewrite E1. cbn [bind]. rewrite Hmn, Hmx, frontR_R, backR_R by lia. cbn [bind]. rewrite E2. cbn [bind]. rewrite Hmn, Hmx, frontR_R, backR_R by lia. cbn [bind].
  f_equal. unfold mix, first_of, last_of. f_equal; rnum; ring.
Qed.
Lemma valid_eat_n t : valid_eat t -> (1 <= sizeZ (ea_energy t))%Z. Proof. intros V. apply (vt_nonempty _ _ _ _ (ve_table t V)). Qed.
Lemma tea_sample_spec energy tables d E x1 xi x2 ds : make_tea energy tables = Ok d -> (2 <= sizeZ energy)%Z -> (forall t, In t tables -> valid_eat t) ->
  0 <= x1 < 1 -> 0 < xi < 1 -> 0 <= x2 < 1 ->
  exists l f t1 t2 h mu e, bracket energy E l f /\ atZ tables l = Ok t1 /\ atZ tables (l + 1) = Ok t2 /\
    let t := if Rlt_dec f x1 then t1 else t2 in
    let lo := mix f (first_of (ea_energy t1)) (first_of (ea_energy t2)) in let hi := mix f (last_of (ea_energy t1)) (last_of (ea_energy t2)) in
    ea_sample t (xi :: x2 :: ds) = Ok ((mu, h), ds) /\ tea_sample d E (x1 :: xi :: x2 :: ds) = Ok ((mu, e), ds) /\ -1 <= mu <= 1 /\ lo <= e <= hi /\
    same_fraction e lo hi h (first_of (ea_energy t)) (last_of (ea_energy t)).
Proof.
  intros M Hn V X1 X X2. destruct (make_tea_inv _ _ _ M) as (I & L & ->).
  destruct (select_bracket energy E I Hn) as (l & f & Es & B & F). destruct B as (B1 & B2 & B3).
  destruct (limits_gen ea_energy ea_min ea_max tables l f (fun _ => eq_refl) (fun _ => eq_refl) ltac:(lia) ltac:(lia) (fun t Ht => valid_eat_n t (V t Ht))) as (t1 & t2 & E1 & E2 & El).
  assert (V1 : valid_eat t1) by (apply V; eauto using atZ_In'). assert (V2 : valid_eat t2) by (apply V; eauto using atZ_In').
  set (t := if Rlt_dec f x1 then t1 else t2). assert (Vt : valid_eat t) by (unfold t; destruct (Rlt_dec f x1); assumption).
  destruct (ea_sample_spec t xi x2 ds Vt X X2) as (a & k & m & h & _ & _ & _ & Hh & Hr & _).
  pose proof (valid_wide _ _ _ _ (ve_table _ V1)) as W1. pose proof (valid_wide _ _ _ _ (ve_table _ V2)) as W2. pose proof (valid_wide _ _ _ _ (ve_table _ Vt)) as Wt.
  set (lo := mix f (first_of (ea_energy t1)) (first_of (ea_energy t2))). set (hi := mix f (last_of (ea_energy t1)) (last_of (ea_energy t2))).
  assert (Hlh : lo <= hi) by (apply mix_le; [exact F|lra|lra]).
  destruct (unit_base_spec lo hi h (first_of (ea_energy t)) (last_of (ea_energy t)) Hlh Wt Hr) as (R1 & R2 & _).
  exists l, f, t1, t2, h, (clamp_mu m), (unit_base lo hi h (first_of (ea_energy t)) (last_of (ea_energy t))).
  split; [split; auto|]. split; [exact E1|]. split; [exact E2|]. cbv zeta. fold t lo hi. split; [exact Hh|]. split; [|split; [apply clamp_mu_bounds|split; assumption]].
  unfold tea_sample. unfold rbind at 1, rlift at 1. cbn [tea_in tea_tables]. rewrite Es. cbn [bind]. unfold rbind at 1, rlift at 1. rewrite El. cbn [bind]. cbv zeta. cbn [u_t1 u_t2 u_a1 u_a2 u_b1 u_b2 u_min u_max]. fold lo hi.
  unfold rbind at 1, draw at 1. change (@nltb R NumR) with Rltb. unfold t in *. destruct (Rlt_dec f x1) as [C|C].
  - rewrite (proj2 (Rltb_true f x1) C). unfold rbind. rewrite Hh. reflexivity.
  - rewrite (proj2 (Rltb_false f x1)) by lra. unfold rbind. rewrite Hh. reflexivity.
Qed.
Lemma tea_sample_zero energy tables d E x1 ds : make_tea energy tables = Ok d -> (2 <= sizeZ energy)%Z -> (forall t, In t tables -> valid_eat t) ->
  tea_sample d E (x1 :: 0 :: ds) = UB.
Proof.
  intros M Hn V. destruct (make_tea_inv _ _ _ M) as (I & L & ->).
  destruct (select_bracket energy E I Hn) as (l & f & Es & B & F). destruct B as (B1 & B2 & B3).
  destruct (limits_gen ea_energy ea_min ea_max tables l f (fun _ => eq_refl) (fun _ => eq_refl) ltac:(lia) ltac:(lia) (fun t Ht => valid_eat_n t (V t Ht))) as (t1 & t2 & E1 & E2 & El).
  assert (V1 : valid_eat t1) by (apply V; eauto using atZ_In'). assert (V2 : valid_eat t2) by (apply V; eauto using atZ_In').
  unfold tea_sample. unfold rbind at 1, rlift at 1. cbn [tea_in tea_tables]. rewrite Es. cbn [bind]. unfold rbind at 1, rlift at 1. rewrite El. cbn [bind]. cbv zeta. cbn [u_t1 u_t2 u_a1 u_a2 u_b1 u_b2 u_min u_max].
  unfold rbind at 1, draw at 1. change (@nltb R NumR) with Rltb. unfold rbind. destruct (Rltb f x1); rewrite ea_sample_zero by assumption; reflexivity.
Qed.
