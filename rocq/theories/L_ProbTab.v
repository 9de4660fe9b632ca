(** * The law of TabularEnergy; EquiprobableAngleBins do not follow their density *)
From Coq Require Import Reals Lra Lia List Arith ZifyBool ZifyNat. From Coquelicot Require Import Coquelicot.
From Verif Require Import Base NumR M_Interp M_PC S_PC M_OutE S_OutE L_Search L_SearchR L_PC L_PCR L_Legendre L_Angle L_OutE L_OutE3 L_OutE4 S_Prob L_Prob L_ProbEv L_ProbLaw L_ProbAngle. Import ListNotations.
Local Open Scope R_scope.
Local Notation iR := (@is_RInt R_NormedModule).

Lemma pcs_stretched t lo hi : valid_pc t -> lo < hi ->
  has_density (fun ds => let! hr := pcs t ds in Ok (unit_base lo hi (fst hr) (first_of (pc_values t)) (last_of (pc_values t)), snd hr)) lo hi (stretched (tdens t) (first_of (pc_values t)) (last_of (pc_values t)) lo hi).
Proof.
  intros V Hlh. destruct (pcs_density t V) as [_ D]. pose proof (valid_wide _ _ _ _ V) as W. apply (density_affine (pcs t) _ _ _ lo hi _ W Hlh); [|exact D].
  intros ds w r F. set (a := first_of (pc_values t)) in *. set (b := last_of (pc_values t)) in *. assert (U : forall h, @unit_base R NumR lo hi h a b = lo + (h - a) * ((hi - lo) / (b - a))) by (intros h; unfold unit_base; rnum; field; lra). destruct (pcs t ds) as [[h r0]| | |]; cbn [bind fst snd].
  - rewrite U. split; [intros H; apply Ok_eq in H; injection H as <- <-; exists h; split; reflexivity|intros (v & H & ->); apply Ok_eq in H; injection H as <- <-; reflexivity].
  - split; [discriminate|intros (v & H & _); discriminate].
  - split; [discriminate|intros (v & H & _); discriminate].
  - split; [discriminate|intros (v & H & _); discriminate].
Qed.
Lemma te_density energy tables d E l f t1 t2 : make_tabe energy tables = Ok d -> (forall t, In t tables -> valid_pc t) -> bracket energy E l f -> atZ tables l = Ok t1 -> atZ tables (l + 1) = Ok t2 ->
  let a1 := first_of (pc_values t1) in let a2 := first_of (pc_values t2) in let b1 := last_of (pc_values t1) in let b2 := last_of (pc_values t2) in
  has_density (te_sample d E) (mix f a1 a2) (mix f b1 b2) (fun x => (1 - f) * stretched (tdens t1) a1 b1 (mix f a1 a2) (mix f b1 b2) x + f * stretched (tdens t2) a2 b2 (mix f a1 a2) (mix f b1 b2) x).
Proof.
  intros M V B E1 E2. destruct (make_tabe_inv _ _ _ M) as (I & L & ->). assert (Hn : (2 <= sizeZ energy)%Z) by (destruct B; lia).
  destruct (select_bracket energy E I Hn) as (l' & f' & Es & B' & F). destruct (bracket_unique energy E l' f' l f I B' B) as [-> ->]. destruct B as (B1 & B2 & B3).
  assert (V1 : valid_pc t1) by (apply V; eauto using atZ_In'). assert (V2 : valid_pc t2) by (apply V; eauto using atZ_In'). pose proof (valid_wide _ _ _ _ V1) as W1. pose proof (valid_wide _ _ _ _ V2) as W2.
  destruct (limits_pc tables l f ltac:(lia) ltac:(lia) V) as (t1' & t2' & E1' & E2' & El). rewrite E1 in E1'. apply Ok_eq in E1'. subst t1'. rewrite E2 in E2'. apply Ok_eq in E2'. subst t2'.
  set (a1 := first_of (pc_values t1)) in *. set (a2 := first_of (pc_values t2)) in *. set (b1 := last_of (pc_values t1)) in *. set (b2 := last_of (pc_values t2)) in *. set (lo := mix f a1 a2) in *. set (hi := mix f b1 b2) in *. cbv zeta.
  assert (Hlh : lo < hi) by (apply mix_lt; [exact F|lra|lra]).
  pose proof (pcs_stretched t1 lo hi V1 Hlh) as S1. pose proof (pcs_stretched t2 lo hi V2 Hlh) as S2. fold a1 b1 in S1. fold a2 b2 in S2.
  apply (density_mix _ _ _ f lo hi _ _ F) with (3 := S1) (4 := S2).
  - intros v r. unfold te_sample, rbind, rlift, draw. cbn [te_in te_tables]. rewrite Es. cbn [bind]. rewrite El. discriminate.
  - intros x ds Hx Fd. unfold te_sample, rbind, rlift, rret, draw. cbn [te_in te_tables]. rewrite Es. cbn [bind]. rewrite El. cbn [bind]. destruct ds as [|x2 ds].
    + destruct (Rlt_dec f x); reflexivity.
    + cbn [pcs]. cbv zeta. cbn [u_t1 u_t2 u_a1 u_a2 u_b1 u_b2 u_min u_max]. fold a1 a2 b1 b2 lo hi. change (@nltb R NumR) with Rltb. destruct (Rltb_spec f x), (Rlt_dec f x); try lra.
      * destruct (pc_sample t1 x2); reflexivity.
      * destruct (pc_sample t2 x2); reflexivity.
Qed.
(** for tables of one width the tabulated density interpolated in E is that density *)
Lemma te_pdf_value energy tables d E l f t1 t2 x : make_tabe energy tables = Ok d -> (forall t, In t tables -> valid_pc t) -> bracket energy E l f -> atZ tables l = Ok t1 -> atZ tables (l + 1) = Ok t2 ->
  let a1 := first_of (pc_values t1) in let a2 := first_of (pc_values t2) in let b1 := last_of (pc_values t1) in let b2 := last_of (pc_values t2) in let lo := mix f a1 a2 in let hi := mix f b1 b2 in
  te_pdf d E x = Ok ((1 - f) * tdens t1 ((x - lo) / (hi - lo) * (b1 - a1) + a1) + f * tdens t2 ((x - lo) / (hi - lo) * (b2 - a2) + a2)).
Proof.
  intros M V B E1 E2. destruct (make_tabe_inv _ _ _ M) as (I & L & ->). assert (Hn : (2 <= sizeZ energy)%Z) by (destruct B; lia).
  destruct (select_bracket energy E I Hn) as (l' & f' & Es & B' & F). destruct (bracket_unique energy E l' f' l f I B' B) as [-> ->]. destruct B as (B1 & B2 & B3).
  assert (V1 : valid_pc t1) by (apply V; eauto using atZ_In'). assert (V2 : valid_pc t2) by (apply V; eauto using atZ_In').
  destruct (limits_pc tables l f ltac:(lia) ltac:(lia) V) as (t1' & t2' & E1' & E2' & El). rewrite E1 in E1'. apply Ok_eq in E1'. subst t1'. rewrite E2 in E2'. apply Ok_eq in E2'. subst t2'.
  cbv zeta. unfold te_pdf. cbn [te_in te_tables]. rewrite Es. cbn [bind]. rewrite El. cbn [bind]. cbv zeta. cbn [u_t1 u_t2 u_a1 u_a2 u_b1 u_b2 u_min u_max].
  rewrite (proj1 (pcs_density t1 V1)). cbn [bind]. rewrite (proj1 (pcs_density t2 V2)). cbn [bind]. unfold unit_base_inv. rnum. f_equal. ring.
Qed.
(** where the interpolated width is the width of both tables, or only one of them counts, pdf is the density of the samples *)
Lemma te_pdf_density energy tables d E l f t1 t2 (g : R -> R) : make_tabe energy tables = Ok d -> (forall t, In t tables -> valid_pc t) -> bracket energy E l f -> atZ tables l = Ok t1 -> atZ tables (l + 1) = Ok t2 ->
  let a1 := first_of (pc_values t1) in let a2 := first_of (pc_values t2) in let b1 := last_of (pc_values t1) in let b2 := last_of (pc_values t2) in
  (f = 0 \/ f = 1 \/ b1 - a1 = b2 - a2) -> (forall x, te_pdf d E x = Ok (g x)) -> has_density (te_sample d E) (mix f a1 a2) (mix f b1 b2) g.
Proof.
  intros M V B E1 E2 a1 a2 b1 b2 Hw Hg. assert (V1 : valid_pc t1) by (apply V; eauto using atZ_In'). assert (V2 : valid_pc t2) by (apply V; eauto using atZ_In'). pose proof (valid_wide _ _ _ _ V1) as W1. pose proof (valid_wide _ _ _ _ V2) as W2. fold a1 b1 in W1. fold a2 b2 in W2.
  pose proof (te_density energy tables d E l f t1 t2 M V B E1 E2) as D. cbv zeta in D. fold a1 a2 b1 b2 in D. eapply density_ext; [|exact D]. intros x _.
  pose proof (te_pdf_value energy tables d E l f t1 t2 x M V B E1 E2) as P. cbv zeta in P. fold a1 a2 b1 b2 in P. rewrite Hg in P. apply Ok_eq in P. rewrite P. unfold stretched.
  assert (Lh : mix f b1 b2 - mix f a1 a2 = (1 - f) * (b1 - a1) + f * (b2 - a2)) by (unfold mix; ring).
  replace ((x - mix f a1 a2) / (mix f b1 b2 - mix f a1 a2) * (b1 - a1) + a1) with (a1 + (x - mix f a1 a2) * ((b1 - a1) / (mix f b1 b2 - mix f a1 a2))) by (unfold Rdiv; ring).
  replace ((x - mix f a1 a2) / (mix f b1 b2 - mix f a1 a2) * (b2 - a2) + a2) with (a2 + (x - mix f a1 a2) * ((b2 - a2) / (mix f b1 b2 - mix f a1 a2))) by (unfold Rdiv; ring). rewrite Lh.
  destruct Hw as [-> |[-> |Hw]].
  - replace ((1 - 0) * (b1 - a1) + 0 * (b2 - a2)) with (b1 - a1) by ring. unfold Rdiv. rewrite !(Rinv_r (b1 - a1)) by lra. ring.
  - replace ((1 - 1) * (b1 - a1) + 1 * (b2 - a2)) with (b2 - a2) by ring. unfold Rdiv. rewrite !(Rinv_r (b2 - a2)) by lra. ring.
  - rewrite <- !Hw. replace ((1 - f) * (b1 - a1) + f * (b1 - a1)) with (b1 - a1) by ring. unfold Rdiv. rewrite !(Rinv_r (b1 - a1)) by lra. ring.
Qed.
(** tables of different width: pdf is not the density *)
Lemma te_pdf_not_density : exists d, make_tabe [1; 2] [uni 1; uni 3] = Ok d /\ (forall t, In t [uni 1; uni 3] -> valid_pc t) /\ forall g, (forall x, te_pdf d (3 / 2) x = Ok (g x)) -> ~ has_density (te_sample d (3 / 2)) 0 2 g.
Proof.
  destruct te_pdf_bad as (d & g & v & M & V & G & I & _ & Ev). exists d. split; [exact M|]. split; [exact V|]. intros g' G' [_ D]. destruct (D 2 ltac:(lra)) as (q & L & Iq). pose proof (law_bounds _ _ _ L) as Bq.
  assert (v = q); [|lra]. transitivity (RInt g 0 2); [symmetry; apply (@is_RInt_unique R_CompleteNormedModule); exact I|]. apply (@is_RInt_unique R_CompleteNormedModule). apply (@is_RInt_ext R_NormedModule g'); [|exact Iq]. intros x _. apply Ok_eq. rewrite <- G, <- G'. reflexivity.
Qed.

(** ** EquiprobableAngleBins *)
Lemma bins_not_density f : (forall mu, al_pdf (angle_bins ub) mu = Ok (f mu)) -> ~ has_density (al_sample (angle_bins ub)) (-1) 1 f.
Proof.
  intros Hf [_ D]. destruct (D (-1 + 1 / 1000) ltac:(lra)) as (q & L & I). assert (Lu : length ub = 33%nat) by (apply uniform_length).
  pose (phi := fun l => match l with [x] => match bins_sample ub x with Ok v => v | _ => 0 end | _ => 0 end).
  assert (U : uses (al_sample (angle_bins ub)) 1 phi).
  { split.
    - intros l r Hl _. apply ud1 in Hl as (x & -> & Hx). cbn [app al_sample angle_bins phi]. unfold rbind, draw, rlift. destruct (bins_safe ub x Lu ltac:(lra)) as (mu & E & _). rewrite E. reflexivity.
    - intros l Hl v r. destruct l; [discriminate|cbn in Hl; lia]. }
  assert (EV : forall x, 0 < x < 1 -> phi [x] <= -1 + 1 / 1000 <-> x <= 1 / 32000).
  { intros x Hx. unfold phi. destruct (bins_sample_form ub x Lu ltac:(lra)) as (b & B1 & B2 & E). rewrite E. rewrite ub_get by lia. rewrite minus_IZR.
    set (m := 32 * (x - IZR b / 32) + (IZR b - 16) / 16). assert (Em : m = 32 * x - 15 / 16 * IZR b - 1) by (unfold m; field). destruct (Z.eq_dec b 0) as [->|Nb].
    - rewrite clamp_mu_id by lra. split; intros; lra.
    - assert (1 <= b)%Z as Q by lia. apply IZR_le in Q. assert (-1 + 17 / 528 <= m) as Hm by lra. split; intros H; [exfalso|lra]. destruct (Rle_dec m 1) as [C|C].
      + rewrite clamp_mu_id in H by lra. lra.
      + unfold clamp_mu in H. change (@nabs R NumR m) with (Rabs m) in H. change (@nltb R NumR) with Rltb in H. change (@nofZ R NumR 1) with 1 in H. rewrite (proj2 (Rltb_true 1 (Rabs m))) in H by (rewrite Rabs_right by lra; lra). change (@nsignbit R NumR m) with (Rltb m 0) in H. rewrite (proj2 (Rltb_false m 0)) in H by lra. lra. }
  assert (L' : law (al_sample (angle_bins ub)) (fun v => v <= -1 + 1 / 1000) (1 / 32000)).
  { apply (law_uses _ 1 phi _ _ U). exists (fun l => match l with [x] => if Rle_dec x (1 / 32000) then 1 else 0 | _ => 0 end). split.
    - intros l Hl. apply ud1 in Hl as (x & -> & Hx). pose proof (EV x Hx). destruct (Rle_dec x (1 / 32000)); [left|right]; tauto.
    - exists (fun x => if Rle_dec x (1 / 32000) then 1 else 0). split; [intros; reflexivity|]. eapply iR_eq; [|apply (iR_step _ (1 / 32000) 1 0); [lra| |]]; [ring| |]; intros x Hx; destruct (Rle_dec x (1 / 32000)); try reflexivity; lra. }
  pose proof (law_unique _ _ _ _ L L') as Eq. pose proof (iR_const_on f (-1) (-1 + 1 / 1000) (1 / 2) ltac:(lra)) as J.
  assert (K : iR f (-1) (-1 + 1 / 1000) ((-1 + 1 / 1000 - -1) * (1 / 2))).
  { apply J. intros x Hx. apply Ok_eq. rewrite <- Hf. change (al_pdf (angle_bins ub) x) with (bins_pdf ub x). assert (G0 : getR ub 0 = -1) by (rewrite ub_get by lia; cbn; lra). assert (G1 : getR ub (0 + 1) = -15 / 16) by (rewrite ub_get by lia; reflexivity).
    rewrite (bins_pdf_value ub 0 x Lu ub_strict ltac:(lia)) by (rewrite G0, G1; lra). rewrite G0, G1. f_equal. lra. }
  assert (q = (-1 + 1 / 1000 - -1) * (1 / 2)); [|lra]. transitivity (RInt f (-1) (-1 + 1 / 1000)); [symmetry|]; apply (@is_RInt_unique R_CompleteNormedModule); assumption.
Qed.

(** ** glue for the statements *)
Lemma te_dens_ext t1 t2 p1 p2 f a1 a2 b1 b2 lo hi x : valid_pc t1 -> valid_pc t2 -> (forall x, pc_pdf t1 x = Ok (p1 x)) -> (forall x, pc_pdf t2 x = Ok (p2 x)) ->
  (1 - f) * stretched (tdens t1) a1 b1 lo hi x + f * stretched (tdens t2) a2 b2 lo hi x = (1 - f) * stretched p1 a1 b1 lo hi x + f * stretched p2 a2 b2 lo hi x.
Proof.
  intros V1 V2 P1 P2. assert (E1 : forall y, tdens t1 y = p1 y) by (intros y; apply Ok_eq; rewrite <- P1; symmetry; apply (pcs_density t1 V1)). assert (E2 : forall y, tdens t2 y = p2 y) by (intros y; apply Ok_eq; rewrite <- P2; symmetry; apply (pcs_density t2 V2)).
  unfold stretched. rewrite E1, E2. reflexivity.
Qed.
Lemma angle_table_accepted t : valid_pc t ->
  (make_angle_table t = Ok t <-> -1 <= first_of (pc_values t) /\ last_of (pc_values t) <= 1) /\ (make_angle_table t = Ok t \/ make_angle_table t = Throw).
Proof.
  intros V. assert (Hn : (1 <= sizeZ (pc_values t))%Z) by (apply (vt_nonempty _ _ _ _ V)). unfold make_angle_table, pc_min, pc_max, frontR, first_of, last_of. rewrite (atR (pc_values t) 0) by lia. cbn [bind]. rewrite backR_R by lia. cbn [bind].
  change (@nltb R NumR) with Rltb. change (@nopp R NumR (@nofZ R NumR 1)) with (- (1)). change (@nofZ R NumR 1) with 1.
  rcase1; [split; [split; [discriminate|lra]|right; reflexivity]|]. rcase1; [split; [split; [discriminate|lra]|right; reflexivity]|]. split; [split; [intros _; lra|reflexivity]|left; reflexivity].
Qed.
