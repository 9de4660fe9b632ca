(** * pdf against the joint laws of Kalbach and TabularEnergyAngle *)
From Coq Require Import Reals Lra Lia List Arith ZifyBool ZifyNat. From Coquelicot Require Import Coquelicot.
From Verif Require Import Base NumR M_Interp M_PC S_PC M_OutE S_OutE L_Search L_SearchR L_PC L_PCR L_Interp2 L_Legendre L_Angle L_OutE L_OutE2 L_OutE3 L_OutE4 L_OutE5 S_Prob L_Prob L_ProbEv L_ProbLaw L_ProbAngle L_ProbDbrc S_JointLaw L_ProbJoint L_ProbJoint2 L_ProbJoint3 L_ProbJoint4 L_ProbJoint5. Import ListNotations.
Local Open Scope R_scope.
Local Notation iR := (@is_RInt R_NormedModule).

Lemma tdens_pdf a x : tdens a x = match pc_pdf a x with Ok z => z | _ => 0 end. Proof. destruct a; reflexivity. Qed.
Lemma tdens_ok a x : valid_pc a -> pc_pdf a x = Ok (tdens a x).
Proof. intros V. apply (proj1 (pcs_density a V)). Qed.
(** ** what pdf returns, at any incident energy *)
Lemma kal_pdf_eq energy tables d E l f t1 t2 mu x : make_kal energy tables = Ok d -> (forall t, In t tables -> valid_kt t) -> bracket energy E l f -> atZ tables l = Ok t1 -> atZ tables (l + 1) = Ok t2 ->
  let a1 := first_of (k_energy t1) in let a2 := first_of (k_energy t2) in let b1 := last_of (k_energy t1) in let b2 := last_of (k_energy t2) in let lo := mix f a1 a2 in let hi := mix f b1 b2 in
  forall y1 y2, k_pdf2 t1 mu (unit_base_inv lo hi x a1 b1) = Ok y1 -> k_pdf2 t2 mu (unit_base_inv lo hi x a2 b2) = Ok y2 -> kal_pdf d E mu x = Ok ((1 - f) * y1 + f * y2).
Proof.
  intros M G B E1 E2. destruct (make_kal_inv _ _ _ M) as (I & L & ->). assert (Hn : (2 <= sizeZ energy)%Z) by (destruct B; lia).
  destruct (select_bracket energy E I Hn) as (l' & f' & Es & B' & F). destruct (bracket_unique energy E l' f' l f I B' B) as [-> ->]. destruct B as (B1 & B2 & B3).
  destruct (limits_gen k_energy k_min k_max tables l f (fun _ => eq_refl) (fun _ => eq_refl) ltac:(lia) ltac:(lia) (fun t Ht => valid_kt_n t (G t Ht))) as (t1' & t2' & E1' & E2' & El). rewrite E1 in E1'. apply Ok_eq in E1'. subst t1'. rewrite E2 in E2'. apply Ok_eq in E2'. subst t2'.
  cbv zeta. intros y1 y2 Y1 Y2. unfold kal_pdf. cbn [kal_in kal_tables]. rewrite Es. cbn [bind]. rewrite El. cbn [bind u_t1 u_t2 u_a1 u_a2 u_b1 u_b2 u_min u_max]. rewrite Y1. cbn [bind]. rewrite Y2. cbn [bind]. rnum. f_equal. ring.
Qed.
Lemma tea_pdf_eq energy tables d E l f t1 t2 mu x : make_tea energy tables = Ok d -> (forall t, In t tables -> valid_eat t) -> bracket energy E l f -> atZ tables l = Ok t1 -> atZ tables (l + 1) = Ok t2 ->
  let a1 := first_of (ea_energy t1) in let a2 := first_of (ea_energy t2) in let b1 := last_of (ea_energy t1) in let b2 := last_of (ea_energy t2) in let lo := mix f a1 a2 in let hi := mix f b1 b2 in
  forall y1 y2, ea_pdf2 t1 mu (unit_base_inv lo hi x a1 b1) = Ok y1 -> ea_pdf2 t2 mu (unit_base_inv lo hi x a2 b2) = Ok y2 -> tea_pdf d E mu x = Ok ((1 - f) * y1 + f * y2).
Proof.
  intros M G B E1 E2. destruct (make_tea_inv _ _ _ M) as (I & L & ->). assert (Hn : (2 <= sizeZ energy)%Z) by (destruct B; lia).
  destruct (select_bracket energy E I Hn) as (l' & f' & Es & B' & F). destruct (bracket_unique energy E l' f' l f I B' B) as [-> ->]. destruct B as (B1 & B2 & B3).
  destruct (limits_gen ea_energy ea_min ea_max tables l f (fun _ => eq_refl) (fun _ => eq_refl) ltac:(lia) ltac:(lia) (fun t Ht => valid_eat_n t (G t Ht))) as (t1' & t2' & E1' & E2' & El). rewrite E1 in E1'. apply Ok_eq in E1'. subst t1'. rewrite E2 in E2'. apply Ok_eq in E2'. subst t2'.
  cbv zeta. intros y1 y2 Y1 Y2. unfold tea_pdf. cbn [tea_in tea_tables]. rewrite Es. cbn [bind]. rewrite El. cbn [bind u_t1 u_t2 u_a1 u_a2 u_b1 u_b2 u_min u_max]. rewrite Y1. cbn [bind]. rewrite Y2. cbn [bind]. rnum. f_equal. ring.
Qed.
(** ** histogram tables of one range: pdf is the joint density *)
Lemma kt_hist t p A Rr k h mu : good_kt t -> k_interp t = Histogram -> (forall h, pc_pdf (mkPC (k_energy t) (k_pdf t) (k_cdf t) (k_interp t)) h = Ok (p h)) -> (forall h, k_Aof t h = Ok (A h)) -> (forall h, k_Rof t h = Ok (Rr h)) -> between (k_energy t) k h ->
  k_pdf2 t mu h = Ok (p h * kalbach_density (A h) (Rr h) mu).
Proof.
  intros (V & PA & PR) Hi P EA ER B. pose proof B as (H1 & H2 & H3). assert (Vp : valid_pc (kt_pc t)) by exact (vk_table t V). rewrite (k_pdf_value t mu k h V H1 H2 H3). rewrite Hi. f_equal.
  assert (Ek : A h = getR (k_A t) k). { specialize (EA h). unfold k_Aof in EA. rewrite (par_ok t (k_A t) h V (vk_A t V)) in EA. apply Ok_eq in EA. rewrite <- EA. rewrite (par_line t _ k h V (vk_A t V) B). unfold pline. rewrite Hi. reflexivity. }
  assert (Rk : Rr h = getR (k_R t) k). { specialize (ER h). unfold k_Rof in ER. rewrite (par_ok t (k_R t) h V (vk_R t V)) in ER. apply Ok_eq in ER. rewrite <- ER. rewrite (par_line t _ k h V (vk_R t V) B). unfold pline. rewrite Hi. reflexivity. }
  assert (Pk : p h = getR (k_pdf t) k). { pose proof (line_dens (kt_pc t) Vp k h B) as D. unfold line in D. cbn [kt_pc pc_interp pc_pdfs pc_values] in D. rewrite Hi in D. rewrite tdens_pdf in D. unfold kt_pc in D. rewrite P in D. exact D. }
  rewrite Ek, Rk, Pk. rewrite mu_p_density; [ring|]. assert (0 < getR (k_A t) k); [|lra]. apply PA, getR_In. rewrite (vk_A t V). lia.
Qed.
Lemma eat_hist t p T q k h mu : valid_eat t -> ea_interp t = Histogram -> (forall h, pc_pdf (mkPC (ea_energy t) (ea_pdf t) (ea_cdf t) (ea_interp t)) h = Ok (p h)) ->
  (forall k h, between (ea_energy t) k h -> angular_table t h (T h)) -> (forall mu h, pc_pdf (T h) mu = Ok (q mu h)) -> between (ea_energy t) k h -> ea_pdf2 t mu h = Ok (p h * q mu h).
Proof.
  intros V Hi P AT Q B. pose proof B as (H1 & H2 & H3). assert (Vp : valid_pc (ea_pc t)) by exact (ve_table t V). rewrite (ea_pdf_value t mu k h V H1 H2 H3). rewrite Hi. f_equal.
  assert (Pk : p h = getR (ea_pdf t) k). { pose proof (line_dens (ea_pc t) Vp k h B) as D. unfold line in D. cbn [ea_pc pc_interp pc_pdfs pc_values] in D. rewrite Hi in D. rewrite tdens_pdf in D. unfold ea_pc in D. rewrite P in D. exact D. }
  destruct (AT k h B) as (k' & (K1 & K2 & K3) & D).
  assert (k' = k) as ->. { pose proof (vt_values _ _ _ _ (ve_table t V)) as Inc. destruct (Z_lt_dec k k') as [L|L]; [assert (getR (ea_energy t) (k + 1) <= getR (ea_energy t) k') by (apply Inc; lia); lra|]. destruct (Z_lt_dec k' k) as [L'|L']; [assert (getR (ea_energy t) (k' + 1) <= getR (ea_energy t) k) by (apply Inc; lia); lra|lia]. }
  destruct D as [[_ D]|[D _]]; [|exfalso; apply D; left; left; exact Hi]. destruct (ea_angle_at t k V ltac:(lia)) as [E1 _]. rewrite E1 in D. apply Ok_eq in D. rewrite D. unfold pdf_at. rewrite Q, Pk. ring.
Qed.
Lemma unit_base_inv_same a b x : a < b -> @unit_base_inv R NumR a b x a b = x. Proof. intros H. unfold unit_base_inv. rnum. field. lra. Qed.
Lemma stretched_pair_same f a b mu x : a < b -> stretched_pair f a b a b mu x = f mu x.
Proof. intros H. unfold stretched_pair. replace ((b - a) / (b - a)) with 1 by (field; lra). rewrite Rmult_1_l. f_equal. ring. Qed.
Lemma kal_hist_pdf energy tables d E l f t1 t2 p1 p2 A1 A2 R1 R2 a b k1 k2 mu x : make_kal energy tables = Ok d -> (forall t, In t tables -> good_kt t) -> bracket energy E l f -> atZ tables l = Ok t1 -> atZ tables (l + 1) = Ok t2 ->
  (forall h, pc_pdf (mkPC (k_energy t1) (k_pdf t1) (k_cdf t1) (k_interp t1)) h = Ok (p1 h)) -> (forall h, pc_pdf (mkPC (k_energy t2) (k_pdf t2) (k_cdf t2) (k_interp t2)) h = Ok (p2 h)) ->
  (forall h, k_Aof t1 h = Ok (A1 h)) -> (forall h, k_Rof t1 h = Ok (R1 h)) -> (forall h, k_Aof t2 h = Ok (A2 h)) -> (forall h, k_Rof t2 h = Ok (R2 h)) ->
  k_interp t1 = Histogram -> k_interp t2 = Histogram -> first_of (k_energy t1) = a -> first_of (k_energy t2) = a -> last_of (k_energy t1) = b -> last_of (k_energy t2) = b -> between (k_energy t1) k1 x -> between (k_energy t2) k2 x ->
  kal_pdf d E mu x = Ok ((1 - f) * stretched_pair (fun mu h => p1 h * kalbach_density (A1 h) (R1 h) mu) a b a b mu x + f * stretched_pair (fun mu h => p2 h * kalbach_density (A2 h) (R2 h) mu) a b a b mu x).
Proof.
  intros M G B E1 E2 P1 P2 EA1 ER1 EA2 ER2 Hi1 Hi2 F1 F2 L1 L2 B1 B2. assert (G1 : good_kt t1) by (apply G; eauto using atZ_In'). assert (G2 : good_kt t2) by (apply G; eauto using atZ_In').
  assert (Hab : a < b) by (rewrite <- F1, <- L1; exact (valid_wide _ _ _ _ (vk_table _ (proj1 G1)))). rewrite !stretched_pair_same by exact Hab.
  refine (kal_pdf_eq energy tables d E l f t1 t2 mu x M (fun t Ht => proj1 (G t Ht)) B E1 E2 _ _ _ _); rewrite F1, F2, L1, L2; unfold mix; replace ((1 - f) * a + f * a) with a by ring; replace ((1 - f) * b + f * b) with b by ring; rewrite unit_base_inv_same by exact Hab.
  - exact (kt_hist t1 p1 A1 R1 k1 x mu G1 Hi1 P1 EA1 ER1 B1).
  - exact (kt_hist t2 p2 A2 R2 k2 x mu G2 Hi2 P2 EA2 ER2 B2).
Qed.
Lemma tea_hist_pdf energy tables d E l f t1 t2 p1 p2 T1 T2 q1 q2 a b k1 k2 mu x : make_tea energy tables = Ok d -> (forall t, In t tables -> valid_eat t /\ cosines_in t) -> bracket energy E l f -> atZ tables l = Ok t1 -> atZ tables (l + 1) = Ok t2 ->
  (forall h, pc_pdf (mkPC (ea_energy t1) (ea_pdf t1) (ea_cdf t1) (ea_interp t1)) h = Ok (p1 h)) -> (forall h, pc_pdf (mkPC (ea_energy t2) (ea_pdf t2) (ea_cdf t2) (ea_interp t2)) h = Ok (p2 h)) ->
  (forall k h, between (ea_energy t1) k h -> angular_table t1 h (T1 h)) -> (forall k h, between (ea_energy t2) k h -> angular_table t2 h (T2 h)) ->
  (forall mu h, pc_pdf (T1 h) mu = Ok (q1 mu h)) -> (forall mu h, pc_pdf (T2 h) mu = Ok (q2 mu h)) ->
  ea_interp t1 = Histogram -> ea_interp t2 = Histogram -> first_of (ea_energy t1) = a -> first_of (ea_energy t2) = a -> last_of (ea_energy t1) = b -> last_of (ea_energy t2) = b -> between (ea_energy t1) k1 x -> between (ea_energy t2) k2 x ->
  tea_pdf d E mu x = Ok ((1 - f) * stretched_pair (fun mu h => p1 h * q1 mu h) a b a b mu x + f * stretched_pair (fun mu h => p2 h * q2 mu h) a b a b mu x).
Proof.
  intros M G B E1 E2 P1 P2 AT1 AT2 Q1 Q2 Hi1 Hi2 F1 F2 L1 L2 B1 B2. assert (G1 : valid_eat t1) by (apply G; eauto using atZ_In'). assert (G2 : valid_eat t2) by (apply G; eauto using atZ_In').
  assert (Hab : a < b) by (rewrite <- F1, <- L1; exact (valid_wide _ _ _ _ (ve_table _ G1))). rewrite !stretched_pair_same by exact Hab.
  refine (tea_pdf_eq energy tables d E l f t1 t2 mu x M (fun t Ht => proj1 (G t Ht)) B E1 E2 _ _ _ _); rewrite F1, F2, L1, L2; unfold mix; replace ((1 - f) * a + f * a) with a by ring; replace ((1 - f) * b + f * b) with b by ring; rewrite unit_base_inv_same by exact Hab.
  - exact (eat_hist t1 p1 T1 q1 k1 x mu G1 Hi1 P1 AT1 Q1 B1).
  - exact (eat_hist t2 p2 T2 q2 k2 x mu G2 Hi2 P2 AT2 Q2 B2).
Qed.
(** ** what two joint laws of one sampler say *)
Lemma joint_cdf s a b f g J m x : joint_law s a b f -> -1 <= m <= 1 -> a <= x <= b -> (forall h, a < h < x -> iR (fun mu => f mu h) (-1) m (g h)) -> iR g a x J -> law s (fun v => fst v <= m /\ snd v <= x) J.
Proof.
  intros [_ H] Hm Hx G1 G2. destruct (H m x Hm Hx) as (g' & J' & A1 & A2 & A3). replace J with J'; [exact A3|].
  assert (Q : iR g a x J') by (apply (iR_ext g'); [lra|intros h Hh; transitivity (RInt (fun mu => f mu h) (-1) m); [symmetry|]; apply (@is_RInt_unique R_CompleteNormedModule); [apply A1|apply G1]; lra|exact A2]).
  transitivity (RInt g a x); [symmetry|]; apply (@is_RInt_unique R_CompleteNormedModule); assumption.
Qed.
