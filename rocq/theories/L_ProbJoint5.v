(** * The joint laws of Kalbach and TabularEnergyAngle, at any incident energy *)
From Coq Require Import Reals Lra Lia List Arith ZifyBool ZifyNat. From Coquelicot Require Import Coquelicot.
From Verif Require Import Base NumR M_Interp M_PC S_PC M_OutE S_OutE L_Search L_SearchR L_PC L_PCR L_Interp2 L_Legendre L_Angle L_OutE L_OutE2 L_OutE3 L_OutE4 L_OutE5 S_Prob L_Prob L_ProbEv L_ProbLaw L_ProbAngle L_ProbDbrc S_JointLaw L_ProbJoint L_ProbJoint2 L_ProbJoint3 L_ProbJoint4. Import ListNotations.
Local Open Scope R_scope.
Local Notation iR := (@is_RInt R_NormedModule).

Lemma unit_base_line lo hi a b h : a < b -> @unit_base R NumR lo hi h a b = lo + (h - a) * ((hi - lo) / (b - a)).
Proof. intros Hab. unfold unit_base. rnum. field. lra. Qed.
(** a pair with its energy stretched *)
Definition stretch_to (s : rand R (R * R)) (a b lo hi : R) (ds : list R) : res (R * R * list R) := let! q := s ds in Ok ((fst (fst q), unit_base lo hi (snd (fst q)) a b), snd q).
Lemma joint_stretch (s : rand R (R * R)) a b lo hi f : a < b -> lo < hi -> joint_law s a b f -> joint_law (stretch_to s a b lo hi) lo hi (stretched_pair f a b lo hi).
Proof.
  intros Hab Hlh. apply joint_affine; [exact Hab|exact Hlh|]. intros ds w r _. unfold stretch_to. destruct (s ds) as [[v r0]| | |]; cbn [bind fst snd].
  - rewrite unit_base_line by exact Hab. split; [intros H; apply Ok_eq in H; injection H as <- <-; exists v; split; reflexivity|intros (v' & H & ->); apply Ok_eq in H; injection H as <- <-; reflexivity].
  - split; [discriminate|intros (v & H & _); discriminate].
  - split; [discriminate|intros (v & H & _); discriminate].
  - split; [discriminate|intros (v & H & _); discriminate].
Qed.
Lemma stretched_pair_ext f g a b lo hi mu x : a < b -> lo < hi -> lo < x < hi -> (forall h, a < h < b -> f mu h = g mu h) -> stretched_pair f a b lo hi mu x = stretched_pair g a b lo hi mu x.
Proof.
  intros Hab Hlh Hx E. unfold stretched_pair. f_equal. apply E. set (k := (b - a) / (hi - lo)). assert (Pk : 0 < k) by (apply Rdiv_lt_0_compat; lra). assert (Kk : (hi - lo) * k = b - a) by (unfold k; field; lra). split; nra.
Qed.
Lemma kal_joint energy tables d E l f t1 t2 p1 p2 A1 A2 R1 R2 : make_kal energy tables = Ok d -> (forall t, In t tables -> good_kt t) -> bracket energy E l f -> atZ tables l = Ok t1 -> atZ tables (l + 1) = Ok t2 ->
  (forall h, pc_pdf (mkPC (k_energy t1) (k_pdf t1) (k_cdf t1) (k_interp t1)) h = Ok (p1 h)) -> (forall h, pc_pdf (mkPC (k_energy t2) (k_pdf t2) (k_cdf t2) (k_interp t2)) h = Ok (p2 h)) ->
  (forall h, k_Aof t1 h = Ok (A1 h)) -> (forall h, k_Rof t1 h = Ok (R1 h)) -> (forall h, k_Aof t2 h = Ok (A2 h)) -> (forall h, k_Rof t2 h = Ok (R2 h)) ->
  let a1 := first_of (k_energy t1) in let a2 := first_of (k_energy t2) in let b1 := last_of (k_energy t1) in let b2 := last_of (k_energy t2) in let lo := mix f a1 a2 in let hi := mix f b1 b2 in
  joint_law (kal_sample d E) lo hi (fun mu x => (1 - f) * stretched_pair (fun mu h => p1 h * kalbach_density (A1 h) (R1 h) mu) a1 b1 lo hi mu x + f * stretched_pair (fun mu h => p2 h * kalbach_density (A2 h) (R2 h) mu) a2 b2 lo hi mu x).
Proof.
  intros M G B E1 E2 P1 P2 EA1 ER1 EA2 ER2. destruct (make_kal_inv _ _ _ M) as (I & L & ->). assert (Hn : (2 <= sizeZ energy)%Z) by (destruct B; lia).
  destruct (select_bracket energy E I Hn) as (l' & f' & Es & B' & F). destruct (bracket_unique energy E l' f' l f I B' B) as [-> ->]. destruct B as (B1 & B2 & B3).
  assert (G1 : good_kt t1) by (apply G; eauto using atZ_In'). assert (G2 : good_kt t2) by (apply G; eauto using atZ_In'). pose proof (valid_wide _ _ _ _ (vk_table _ (proj1 G1))) as W1. pose proof (valid_wide _ _ _ _ (vk_table _ (proj1 G2))) as W2.
  destruct (limits_gen k_energy k_min k_max tables l f (fun _ => eq_refl) (fun _ => eq_refl) ltac:(lia) ltac:(lia) (fun t Ht => valid_kt_n t (proj1 (G t Ht)))) as (t1' & t2' & E1' & E2' & El). rewrite E1 in E1'. apply Ok_eq in E1'. subst t1'. rewrite E2 in E2'. apply Ok_eq in E2'. subst t2'.
  set (a1 := first_of (k_energy t1)) in *. set (a2 := first_of (k_energy t2)) in *. set (b1 := last_of (k_energy t1)) in *. set (b2 := last_of (k_energy t2)) in *. set (lo := mix f a1 a2) in *. set (hi := mix f b1 b2) in *. cbv zeta.
  assert (Hlh : lo < hi) by (apply mix_lt; [exact F|lra|lra]).
  assert (J : forall t p A Rr, good_kt t -> (forall h, pc_pdf (mkPC (k_energy t) (k_pdf t) (k_cdf t) (k_interp t)) h = Ok (p h)) -> (forall h, k_Aof t h = Ok (A h)) -> (forall h, k_Rof t h = Ok (Rr h)) -> joint_law (kt_pair t) (first_of (k_energy t)) (last_of (k_energy t)) (fun mu h => p h * kalbach_density (A h) (Rr h) mu)).
  { intros t p A Rr Gt P EA ER. apply (joint_ext _ _ _ (fun mu h => tdens (kt_pc t) h * kalbach_density (par t (k_A t) h) (par t (k_R t) h) mu)); [|apply kt_joint; exact Gt]. intros mu h _. unfold tdens, dens, kt_pc. cbn [pc_values pc_pdfs pc_cdf pc_interp]. rewrite P. unfold par. specialize (EA h). specialize (ER h). unfold k_Aof in EA. unfold k_Rof in ER. rewrite EA, ER. reflexivity. }
  pose proof (joint_stretch _ _ _ lo hi _ W1 Hlh (J t1 p1 A1 R1 G1 P1 EA1 ER1)) as S1. pose proof (joint_stretch _ _ _ lo hi _ W2 Hlh (J t2 p2 A2 R2 G2 P2 EA2 ER2)) as S2. fold a1 b1 in S1. fold a2 b2 in S2.
  refine (joint_mix (kal_sample (mkKal energy tables) E) _ _ f lo hi _ _ F _ _ S1 S2).
  - intros v r. unfold kal_sample, rbind, rlift, draw. cbn [kal_in kal_tables]. rewrite Es. cbn [bind]. rewrite El. discriminate.
  - intros x ds Hx Fd. unfold kal_sample. unfold rbind at 1, rlift at 1. cbn [kal_in kal_tables]. rewrite Es. cbn [bind]. unfold rbind at 1, rlift at 1. rewrite El. cbn [bind]. cbv zeta. cbn [u_t1 u_t2 u_a1 u_a2 u_b1 u_b2 u_min u_max]. fold a1 a2 b1 b2 lo hi.
    unfold rbind at 1, draw at 1. unfold rbind at 1, draw at 1. change (@nltb R NumR) with Rltb. unfold stretch_to, kt_pair. destruct ds as [|x2 ds]; [destruct (Rlt_dec f x); reflexivity|].
    assert (Eq : forall t a b, (rlet! h := rlift (k_sample t x2) in rlet! Rv := rlift (k_Rof t h) in rlet! Av := rlift (k_Aof t h) in rlet! mu := kal_mu Rv Av in rret (mu, unit_base lo hi h a b)) ds =
      (let! q := (let! h := k_sample t x2 in let! rv := k_Rof t h in let! av := k_Aof t h in let! q := kal_mu rv av ds in Ok (fst q, h, snd q)) in Ok (fst (fst q), unit_base lo hi (snd (fst q)) a b, snd q))).
    { intros t a b. unfold rbind, rlift, rret. destruct (k_sample t x2) as [h| | |]; cbn [bind]; try reflexivity. destruct (k_Rof t h) as [rv| | |]; cbn [bind]; try reflexivity. destruct (k_Aof t h) as [av| | |]; cbn [bind]; try reflexivity. destruct (kal_mu rv av ds) as [[q r]| | |]; reflexivity. }
    destruct (Rltb_spec f x), (Rlt_dec f x); try lra; apply Eq.
Qed.
Lemma tea_joint energy tables d E l f t1 t2 p1 p2 T1 T2 q1 q2 : make_tea energy tables = Ok d -> (forall t, In t tables -> valid_eat t /\ cosines_in t) -> bracket energy E l f -> atZ tables l = Ok t1 -> atZ tables (l + 1) = Ok t2 ->
  (forall h, pc_pdf (mkPC (ea_energy t1) (ea_pdf t1) (ea_cdf t1) (ea_interp t1)) h = Ok (p1 h)) -> (forall h, pc_pdf (mkPC (ea_energy t2) (ea_pdf t2) (ea_cdf t2) (ea_interp t2)) h = Ok (p2 h)) ->
  (forall h, In (T1 h) (ea_angles t1)) -> (forall h, In (T2 h) (ea_angles t2)) ->
  (forall k h, between (ea_energy t1) k h -> angular_table t1 h (T1 h)) -> (forall k h, between (ea_energy t2) k h -> angular_table t2 h (T2 h)) ->
  (forall mu h, pc_pdf (T1 h) mu = Ok (q1 mu h)) -> (forall mu h, pc_pdf (T2 h) mu = Ok (q2 mu h)) ->
  let a1 := first_of (ea_energy t1) in let a2 := first_of (ea_energy t2) in let b1 := last_of (ea_energy t1) in let b2 := last_of (ea_energy t2) in let lo := mix f a1 a2 in let hi := mix f b1 b2 in
  joint_law (tea_sample d E) lo hi (fun mu x => (1 - f) * stretched_pair (fun mu h => p1 h * q1 mu h) a1 b1 lo hi mu x + f * stretched_pair (fun mu h => p2 h * q2 mu h) a2 b2 lo hi mu x).
Proof.
  intros M G B E1 E2 P1 P2 I1 I2 AT1 AT2 Q1 Q2. destruct (make_tea_inv _ _ _ M) as (I & L & ->). assert (Hn : (2 <= sizeZ energy)%Z) by (destruct B; lia).
  destruct (select_bracket energy E I Hn) as (l' & f' & Es & B' & F). destruct (bracket_unique energy E l' f' l f I B' B) as [-> ->]. destruct B as (B1 & B2 & B3).
  assert (G1 : valid_eat t1 /\ cosines_in t1) by (apply G; eauto using atZ_In'). assert (G2 : valid_eat t2 /\ cosines_in t2) by (apply G; eauto using atZ_In'). pose proof (valid_wide _ _ _ _ (ve_table _ (proj1 G1))) as W1. pose proof (valid_wide _ _ _ _ (ve_table _ (proj1 G2))) as W2.
  destruct (limits_gen ea_energy ea_min ea_max tables l f (fun _ => eq_refl) (fun _ => eq_refl) ltac:(lia) ltac:(lia) (fun t Ht => valid_eat_n t (proj1 (G t Ht)))) as (t1' & t2' & E1' & E2' & El). rewrite E1 in E1'. apply Ok_eq in E1'. subst t1'. rewrite E2 in E2'. apply Ok_eq in E2'. subst t2'.
  set (a1 := first_of (ea_energy t1)) in *. set (a2 := first_of (ea_energy t2)) in *. set (b1 := last_of (ea_energy t1)) in *. set (b2 := last_of (ea_energy t2)) in *. set (lo := mix f a1 a2) in *. set (hi := mix f b1 b2) in *. cbv zeta.
  assert (Hlh : lo < hi) by (apply mix_lt; [exact F|lra|lra]).
  assert (J : forall t p T q, valid_eat t /\ cosines_in t -> (forall h, pc_pdf (mkPC (ea_energy t) (ea_pdf t) (ea_cdf t) (ea_interp t)) h = Ok (p h)) -> (forall h, In (T h) (ea_angles t)) -> (forall k h, between (ea_energy t) k h -> angular_table t h (T h)) -> (forall mu h, pc_pdf (T h) mu = Ok (q mu h)) ->
    joint_law (ea_sample t) (first_of (ea_energy t)) (last_of (ea_energy t)) (fun mu h => p h * q mu h)).
  { intros t p T q [V C] P IT AT Q. apply (joint_ext _ _ _ (fun mu h => tdens (ea_pc t) h * tdens (T h) mu)); [|apply ea_joint; assumption]. intros mu h _. unfold tdens at 1, dens. unfold ea_pc. cbn [pc_values pc_pdfs pc_cdf pc_interp]. rewrite P. apply Rmult_eq_compat_l. change (tdens (T h) mu = q mu h). assert (X : forall a, tdens a mu = match pc_pdf a mu with Ok z => z | _ => 0 end) by (intros [vs ps cs i]; reflexivity). rewrite X, Q. reflexivity. }
  pose proof (joint_stretch _ _ _ lo hi _ W1 Hlh (J t1 p1 T1 q1 G1 P1 I1 AT1 Q1)) as S1. pose proof (joint_stretch _ _ _ lo hi _ W2 Hlh (J t2 p2 T2 q2 G2 P2 I2 AT2 Q2)) as S2. fold a1 b1 in S1. fold a2 b2 in S2.
  refine (joint_mix (tea_sample (mkTEA energy tables) E) _ _ f lo hi _ _ F _ _ S1 S2).
  - intros v r. unfold tea_sample, rbind, rlift, draw. cbn [tea_in tea_tables]. rewrite Es. cbn [bind]. rewrite El. discriminate.
  - intros x ds Hx Fd. unfold tea_sample. unfold rbind at 1, rlift at 1. cbn [tea_in tea_tables]. rewrite Es. cbn [bind]. unfold rbind at 1, rlift at 1. rewrite El. cbn [bind]. cbv zeta. cbn [u_t1 u_t2 u_a1 u_a2 u_b1 u_b2 u_min u_max]. fold a1 a2 b1 b2 lo hi.
    unfold rbind at 1, draw at 1. change (@nltb R NumR) with Rltb. unfold stretch_to.
    destruct (Rltb_spec f x), (Rlt_dec f x); try lra; unfold rbind at 1; [destruct (ea_sample t1 ds) as [[? ?]| | |]|destruct (ea_sample t2 ds) as [[? ?]| | |]]; reflexivity.
Qed.
