(** * Single tables, grid energies, refuting instances *)
From Coquelicot Require Import Coquelicot.
From Verif Require Import Base NumR L_Search L_SearchR M_Interp M_PC S_PC L_PC L_PCR M_OutE S_OutE L_Interp2 L_Legendre L_Angle L_OutE L_OutE2 L_OutE3.
From Coq Require Import ZifyBool ZifyNat.
Local Open Scope R_scope.

(** ** one incident energy: every arithmetic *)
Section Single.
  Context {T : Type} {N : Num T}.
  Lemma select_single (e E : T) : exists l f, select [e] E = Ok (l, f) /\ (l = 0 \/ l = -1)%Z.
  Proof.
    unfold select, lower_bound. cbn [length lower_bound_loop]. change (sizeZ [e]) with 1%Z. cbn. destruct (nltb e E); cbn; eauto.
  Qed.
  Lemma limits_single {tbl} (en : tbl -> list T) mn mx (t : tbl) l f : (forall t, mn t = frontR (en t)) -> (forall t, mx t = backR (en t)) ->
    (l = 0 \/ l = -1)%Z -> limits mn mx [t] l f = UB.
  Proof.
    intros H1 H2 [-> | ->]; [|reflexivity]. unfold limits. cbn [atZ nth_error bind]. change (atZ [t] 0) with (Ok t). cbn [bind]. rewrite H1, H2.
    unfold frontR, backR, sizeZ. destruct (en t) as [|x q]; [reflexivity|]. change (atZ (x :: q) 0) with (Ok x). cbn [bind].
    destruct (atZ_res (x :: q) (Z.of_nat (length (x :: q)) - 1)) as [[y ->]| ->]; reflexivity.
  Qed.
  Lemma te_single e t d E E_out ds : make_tabe [e] [t] = Ok d -> te_sample d E ds = UB /\ te_pdf d E E_out = UB.
  Proof.
    unfold make_tabe. cbn. destruct (nltb e e) in *; cbn; intros M; try discriminate; apply Ok_eq in M; subst d;
    (destruct (select_single e E) as (l & f & Es & Hl); unfold te_sample, te_pdf, rbind, rlift; cbn [te_in te_tables]; rewrite Es; cbn [bind];
    rewrite (limits_single pc_values) by (auto; reflexivity); split; reflexivity).
  Qed.
  Lemma tea_single e (t : eat T) d E mu E_out ds : make_tea [e] [t] = Ok d -> tea_sample d E ds = UB /\ tea_pdf d E mu E_out = UB.
  Proof.
    unfold make_tea. cbn. intros M; apply Ok_eq in M; subst d;
    (destruct (select_single e E) as (l & f & Es & Hl); unfold tea_sample, tea_pdf, rbind, rlift; cbn [tea_in tea_tables]; rewrite Es; cbn [bind];
    rewrite (limits_single ea_energy) by (auto; reflexivity); split; reflexivity).
  Qed.
  Lemma kal_single e (t : kt T) d E mu E_out ds : make_kal [e] [t] = Ok d -> kal_sample d E ds = UB /\ kal_pdf d E mu E_out = UB.
  Proof.
    unfold make_kal. cbn. intros M; apply Ok_eq in M; subst d;
    (destruct (select_single e E) as (l & f & Es & Hl); unfold kal_sample, kal_pdf, rbind, rlift; cbn [kal_in kal_tables]; rewrite Es; cbn [bind];
    rewrite (limits_single k_energy) by (auto; reflexivity); split; reflexivity).
  Qed.
End Single.

(** ** at grid energies *)
Lemma bracket_grid energy k l f : strictly_increasing energy -> (0 < k < sizeZ energy)%Z -> bracket energy (getR energy k) l f -> l = (k - 1)%Z /\ f = 1.
Proof.
  intros S Hk B. apply (bracket_unique energy (getR energy k) l f (k - 1) 1); [apply strictly_increasing_increasing, S|exact B|].
  split; [lia|]. split; [lia|]. right; right. replace (k - 1 + 1)%Z with k by lia. assert (getR energy (k - 1) < getR energy k) by (apply S; lia). split; [lra|]. field. lra.
Qed.
Lemma bracket_first energy E l f : increasing energy -> (2 <= sizeZ energy)%Z -> E <= getR energy 0 -> bracket energy E l f -> l = 0%Z /\ f = 0.
Proof. intros I Hn H B. apply (bracket_unique energy E l f 0 0 I B). split; [lia|]. split; [lia|]. left. auto. Qed.
Lemma bracket_last energy E l f : increasing energy -> (2 <= sizeZ energy)%Z -> getR energy (sizeZ energy - 1) < E -> bracket energy E l f -> l = (sizeZ energy - 2)%Z /\ f = 1.
Proof. intros I Hn H B. apply (bracket_unique energy E l f (sizeZ energy - 2) 1 I B). split; [lia|]. split; [lia|]. right; left. auto. Qed.
Lemma mix_1 a b : mix 1 a b = b. Proof. unfold mix. ring. Qed.
Lemma mix_0 a b : mix 0 a b = a. Proof. unfold mix. ring. Qed.
Lemma same_fraction_id x h a b : a < b -> same_fraction x a b h a b -> x = h.
Proof. unfold same_fraction. intros H E. assert (x - a = h - a) by (apply (Rmult_eq_reg_r (b - a)); lra). lra. Qed.
Lemma atZ_det {A} (v : list A) i x y : atZ v i = Ok x -> atZ v i = Ok y -> x = y.
Proof. intros H1 H2. rewrite H1 in H2. apply Ok_eq in H2. exact H2. Qed.

Lemma own_bracket energy E x1 k l f : strictly_increasing energy -> (2 <= sizeZ energy)%Z -> x1 < 1 -> own_table energy E x1 k -> bracket energy E l f ->
  (l = k /\ f = 0 /\ f < x1) \/ ((l + 1)%Z = k /\ f = 1 /\ ~ f < x1).
Proof.
  intros S Hn X O B. pose proof (strictly_increasing_increasing _ S) as I. destruct O as [(H & -> & Hx)|(Hk & [-> | (H & ->)])].
  - left. destruct (bracket_first _ _ _ _ I Hn H B) as [-> ->]. auto.
  - right. destruct (bracket_grid _ _ _ _ S Hk B) as [-> ->]. split; [lia|]. split; [reflexivity|lra].
  - right. destruct (bracket_last _ _ _ _ I Hn H B) as [-> ->]. split; [lia|]. split; [reflexivity|lra].
Qed.
Lemma te_own energy tables d E x1 x2 ds k t : make_tabe energy tables = Ok d -> (2 <= sizeZ energy)%Z -> strictly_increasing energy -> (forall t, In t tables -> valid_pc t) ->
  0 <= x1 < 1 -> 0 <= x2 < 1 -> own_table energy E x1 k -> atZ tables k = Ok t ->
  exists h, pc_sample t x2 = Ok h /\ te_sample d E (x1 :: x2 :: ds) = Ok (h, ds).
Proof.
  intros M Hn S V X1 X2 O Et. destruct (te_sample_spec _ _ _ E x1 x2 ds M Hn V X1 X2) as (l & f & t1 & t2 & h & e & B & E1 & E2 & P).
  destruct (own_bracket _ _ _ _ _ _ S Hn (proj2 X1) O B) as [(-> & -> & Hf)|(<- & -> & Hf)].
  - pose proof (atZ_det _ _ _ _ Et E1) as <-. cbv zeta in P. destruct (Rlt_dec 0 x1) as [_|]; [|contradiction]. rewrite !mix_0 in P. destruct P as (P1 & P2 & _ & P4).
    apply same_fraction_id in P4; [|eapply valid_wide, V; eauto using atZ_In']. subst e. eauto.
  - pose proof (atZ_det _ _ _ _ Et E2) as <-. cbv zeta in P. destruct (Rlt_dec 1 x1) as [|_]; [contradiction|]. rewrite !mix_1 in P. destruct P as (P1 & P2 & _ & P4).
    apply same_fraction_id in P4; [|eapply valid_wide, V; eauto using atZ_In']. subst e. eauto.
Qed.
Lemma tea_own energy tables d E x1 xi x2 ds k t : make_tea energy tables = Ok d -> (2 <= sizeZ energy)%Z -> strictly_increasing energy -> (forall t, In t tables -> valid_eat t) ->
  0 <= x1 < 1 -> 0 < xi < 1 -> 0 <= x2 < 1 -> own_table energy E x1 k -> atZ tables k = Ok t ->
  exists mu h, ea_sample t (xi :: x2 :: ds) = Ok ((mu, h), ds) /\ tea_sample d E (x1 :: xi :: x2 :: ds) = Ok ((mu, h), ds).
Proof.
  intros M Hn S V X1 X X2 O Et. destruct (tea_sample_spec _ _ _ E x1 xi x2 ds M Hn V X1 X X2) as (l & f & t1 & t2 & h & mu & e & B & E1 & E2 & P).
  destruct (own_bracket _ _ _ _ _ _ S Hn (proj2 X1) O B) as [(-> & -> & Hf)|(<- & -> & Hf)].
  - pose proof (atZ_det _ _ _ _ Et E1) as <-. cbv zeta in P. destruct (Rlt_dec 0 x1) as [_|]; [|contradiction]. rewrite !mix_0 in P. destruct P as (P1 & P2 & _ & _ & P4).
    apply same_fraction_id in P4; [|eapply valid_wide, ve_table, V; eauto using atZ_In']. subst e. eauto.
  - pose proof (atZ_det _ _ _ _ Et E2) as <-. cbv zeta in P. destruct (Rlt_dec 1 x1) as [|_]; [contradiction|]. rewrite !mix_1 in P. destruct P as (P1 & P2 & _ & _ & P4).
    apply same_fraction_id in P4; [|eapply valid_wide, ve_table, V; eauto using atZ_In']. subst e. eauto.
Qed.
Lemma kal_own energy tables d E x1 x2 x3 x4 ds k t : make_kal energy tables = Ok d -> (2 <= sizeZ energy)%Z -> strictly_increasing energy -> (forall t, In t tables -> valid_kt t) ->
  0 <= x1 < 1 -> 0 <= x2 < 1 -> own_table energy E x1 k -> atZ tables k = Ok t ->
  exists mu h r a, k_sample t x2 = Ok h /\ k_Rof t h = Ok r /\ k_Aof t h = Ok a /\ kal_mu r a (x3 :: x4 :: ds) = Ok (mu, ds) /\
    kal_sample d E (x1 :: x2 :: x3 :: x4 :: ds) = Ok ((mu, h), ds).
Proof.
  intros M Hn S V X1 X2 O Et. destruct (kal_sample_spec _ _ _ E x1 x2 x3 x4 ds M Hn V X1 X2) as (l & f & t1 & t2 & h & r & a & mu & e & B & E1 & E2 & P).
  destruct (own_bracket _ _ _ _ _ _ S Hn (proj2 X1) O B) as [(-> & -> & Hf)|(<- & -> & Hf)].
  - pose proof (atZ_det _ _ _ _ Et E1) as <-. cbv zeta in P. destruct (Rlt_dec 0 x1) as [_|]; [|contradiction]. rewrite !mix_0 in P. destruct P as (P1 & P2 & P3 & P4 & P5 & _ & _ & P6).
    apply same_fraction_id in P6; [|eapply valid_wide, vk_table, V; eauto using atZ_In']. subst e. exists mu, h, r, a. auto.
  - pose proof (atZ_det _ _ _ _ Et E2) as <-. cbv zeta in P. destruct (Rlt_dec 1 x1) as [|_]; [contradiction|]. rewrite !mix_1 in P. destruct P as (P1 & P2 & P3 & P4 & P5 & _ & _ & P6).
    apply same_fraction_id in P6; [|eapply valid_wide, vk_table, V; eauto using atZ_In']. subst e. exists mu, h, r, a. auto.
Qed.

(** ** instances *)
Definition uni (b : R) : pctable R := mkPC [0; b] [/ b; / b] [0; 1] Histogram.
Lemma uni_valid b : 0 < b -> valid_table [0; b] [/ b; / b] [0; 1] Histogram.
Proof.
  intros Hb. assert (0 < / b) by (apply Rinv_0_lt_compat, Hb). split; try reflexivity.
  - left; reflexivity.
  - cbn. lia.
  - apply increasing_step. intros k H1 H2. assert (k = 0)%Z as -> by (cbn in H2; lia). getz. lra.
  - intros p [<-|[<-|[]]]; lra.
  - intros k H1 H2. assert (k = 0)%Z as -> by (cbn in H2; lia). getz. cbn [seg_area]. field. lra.
Qed.
Definition step2 : pctable R := mkPC [0; 1/2; 1] [1/2; 3/2; 0] [0; 1/4; 1] Histogram.
Lemma step2_valid : valid_table [0; 1/2; 1] [1/2; 3/2; 0] [0; 1/4; 1] Histogram.
Proof.
  split; try reflexivity.
  - left; reflexivity.
  - cbn. lia.
  - apply increasing_step. intros k H1 H2. assert (k = 0 \/ k = 1)%Z as [-> | ->] by (cbn in H2; lia); getz; lra.
  - intros p [<-|[<-|[<-|[]]]]; lra.
  - intros k H1 H2. assert (k = 0 \/ k = 1)%Z as [-> | ->] by (cbn in H2; lia); getz; cbn [seg_area]; lra.
Qed.
Lemma inc12 : increasing [1; 2].
Proof. apply increasing_step. intros k H1 H2. assert (k = 0)%Z as -> by (cbn in H2; lia). getz. lra. Qed.
Lemma make_tabe_ok energy tables : increasing energy -> length energy = length tables -> make_tabe energy tables = Ok (mkTabE energy tables).
Proof. intros I L. unfold make_tabe. rewrite (proj2 (is_sorted_increasing energy) I), (proj2 (Nat.eqb_eq _ _) L). reflexivity. Qed.
(** below the grid a zero draw uses the second table *)
Lemma te_zero_draw energy tables d E x2 ds t1 t2 : make_tabe energy tables = Ok d -> (2 <= sizeZ energy)%Z -> (forall t, In t tables -> valid_pc t) ->
  0 <= x2 < 1 -> E <= getR energy 0 -> atZ tables 0 = Ok t1 -> atZ tables 1 = Ok t2 ->
  exists h e, pc_sample t2 x2 = Ok h /\ te_sample d E (0 :: x2 :: ds) = Ok (e, ds) /\
    same_fraction e (first_of (pc_values t1)) (last_of (pc_values t1)) h (first_of (pc_values t2)) (last_of (pc_values t2)).
Proof.
  intros M Hn V X2 HE T1 T2. destruct (te_sample_spec _ _ _ E 0 x2 ds M Hn V ltac:(lra) X2) as (l & f & t1' & t2' & h & e & B & E1 & E2 & P).
  destruct (make_tabe_inv _ _ _ M) as (I & _). destruct (bracket_first _ _ _ _ I Hn HE B) as [-> ->].
  pose proof (atZ_det _ _ _ _ T1 E1) as <-. pose proof (atZ_det _ _ _ _ T2 E2) as <-. cbv zeta in P. destruct (Rlt_dec 0 0) as [Z|_]; [lra|]. rewrite !mix_0 in P.
  exists h, e. tauto.
Qed.
Lemma te_zero_draw_instance : exists d, make_tabe [1; 2] [uni 1; step2] = Ok d /\ (forall t, In t [uni 1; step2] -> valid_pc t) /\
  te_sample d 1 [0; 1/4] = Ok (1/2, []) /\ pc_sample (uni 1) (1/4) = Ok (1/4).
Proof.
  exists (mkTabE [1; 2] [uni 1; step2]). split; [apply make_tabe_ok; [apply inc12|reflexivity]|]. split; [|split].
  - intros t [<-|[<-|[]]]; [apply (uni_valid 1); lra|apply step2_valid].
  - assert (Hs : pc_sample step2 (1/4) = Ok (1/2)). { unfold pc_sample, step2. reval. f_equal; lra. }
    destruct (te_zero_draw [1; 2] [uni 1; step2] (mkTabE [1; 2] [uni 1; step2]) 1 (1/4) [] (uni 1) step2) as (h & e & H1 & H2 & H3); try reflexivity; try lra.
    + apply make_tabe_ok; [apply inc12|reflexivity].
    + intros t [<-|[<-|[]]]; [apply (uni_valid 1); lra|apply step2_valid].
    + getz. lra.
    + rewrite Hs in H1. apply Ok_eq in H1. subst h. rewrite H2. unfold same_fraction, first_of, last_of, uni, step2 in H3. cbn [pc_values] in H3. f_equal. f_equal. revert H3. getz. lra.
  - unfold pc_sample, uni. reval. f_equal. field.
Qed.
(** unit base interpolation between tables of different width *)
Lemma te_pdf_bad : exists d g v, make_tabe [1; 2] [uni 1; uni 3] = Ok d /\ (forall t, In t [uni 1; uni 3] -> valid_pc t) /\
  (forall x, te_pdf d (3/2) x = Ok (g x)) /\ is_RInt g 0 2 v /\ (forall x, x < 0 \/ 2 < x -> g x = 0) /\ v = 4/3.
Proof.
  assert (V : forall t, In t [uni 1; uni 3] -> valid_pc t) by (intros t [<-|[<-|[]]]; apply uni_valid; lra).
  destruct (te_pdf_spec [1; 2] [uni 1; uni 3] (mkTabE [1; 2] [uni 1; uni 3]) (3/2)) as (l & f & t1 & t2 & g & B & E1 & E2 & P1 & P2 & P3 & P4); try assumption.
  { apply make_tabe_ok; [apply inc12|reflexivity]. } { cbn. lia. }
  assert (Q : l = 0%Z /\ f = 1/2).
  { apply (bracket_unique [1; 2] (3/2) l f 0 (1/2) inc12 B). split; [lia|]. split; [cbn; lia|]. right; right. getz. lra. }
  destruct Q as [-> ->]. change (Ok (uni 1) = Ok t1) in E1. change (Ok (uni 3) = Ok t2) in E2. apply Ok_eq in E1. apply Ok_eq in E2. subst t1 t2.
  exists (mkTabE [1; 2] [uni 1; uni 3]), g, (4/3). split; [apply make_tabe_ok; [apply inc12|reflexivity]|]. split; [exact V|]. split; [exact P1|].
  unfold mix, first_of, last_of, uni in P3, P4. cbn [pc_values] in P3, P4. revert P3 P4. getz. intros P3 P4.
  split; [|split; [|lra]].
  - replace ((1 - 1 / 2) * 0 + 1 / 2 * 0) with 0 in P3 by field. replace ((1 - 1 / 2) * 1 + 1 / 2 * 3) with 2 in P3 by field. eapply iR_val; [|exact P3]. field.
  - intros x Hx. apply P4. lra.
Qed.
Lemma te_pdf_normalised energy tables d E : make_tabe energy tables = Ok d -> (2 <= sizeZ energy)%Z -> (forall t, In t tables -> valid_pc t) ->
  (forall t t', In t tables -> In t' tables -> last_of (pc_values t) - first_of (pc_values t) = last_of (pc_values t') - first_of (pc_values t')) ->
  exists g lo hi, (forall x, te_pdf d E x = Ok (g x)) /\ (forall x, 0 <= g x) /\ (forall x, x < lo \/ hi < x -> g x = 0) /\ is_RInt g lo hi 1.
Proof.
  intros M Hn V W. destruct (te_pdf_spec _ _ _ E M Hn V) as (l & f & t1 & t2 & g & B & E1 & E2 & P1 & P2 & P3 & P4).
  eexists g, _, _. split; [exact P1|]. split; [exact P2|]. split; [exact P4|]. eapply iR_val; [|exact P3].
  pose proof (W t1 t2 (atZ_In' _ _ _ E1) (atZ_In' _ _ _ E2)) as Hw. pose proof (valid_wide _ _ _ _ (V t1 (atZ_In' _ _ _ E1))) as W1.
  set (a1 := first_of (pc_values t1)) in *. set (b1 := last_of (pc_values t1)) in *. set (a2 := first_of (pc_values t2)) in *. set (b2 := last_of (pc_values t2)) in *.
  unfold mix. rewrite <- Hw. replace ((1 - f) * b1 + f * b2 - ((1 - f) * a1 + f * a2)) with (b1 - a1) by (replace (b2) with (b1 - a1 + a2) by lra; ring). field. lra.
Qed.
Lemma te_pdf_grid energy tables d k : make_tabe energy tables = Ok d -> (2 <= sizeZ energy)%Z -> strictly_increasing energy -> (forall t, In t tables -> valid_pc t) -> (0 <= k < sizeZ energy)%Z ->
  exists g lo hi, (forall x, te_pdf d (getR energy k) x = Ok (g x)) /\ (forall x, 0 <= g x) /\ (forall x, x < lo \/ hi < x -> g x = 0) /\ is_RInt g lo hi 1.
Proof.
  intros M Hn S V Hk. destruct (te_pdf_spec _ _ _ (getR energy k) M Hn V) as (l & f & t1 & t2 & g & B & E1 & E2 & P1 & P2 & P3 & P4).
  eexists g, _, _. split; [exact P1|]. split; [exact P2|]. split; [exact P4|]. eapply iR_val; [|exact P3].
  pose proof (valid_wide _ _ _ _ (V t1 (atZ_In' _ _ _ E1))) as W1. pose proof (valid_wide _ _ _ _ (V t2 (atZ_In' _ _ _ E2))) as W2.
  destruct (Z.eq_dec k 0) as [->|].
  - destruct (bracket_first energy (getR energy 0) l f (strictly_increasing_increasing _ S) Hn (Rle_refl _) B) as [_ ->]. rewrite !mix_0. field. lra.
  - destruct (bracket_grid energy k l f S ltac:(lia) B) as [_ ->]. rewrite !mix_1. field. lra.
Qed.
(** mismatched sizes are accepted by EnergyAngleTable and crash *)
Lemma eat_mismatch : exists t : eat R, make_eat [0; 1] [1; 1] [0; 1] [] Histogram = Ok t /\ forall xi ds, 0 < xi < 1 -> ea_sample t (xi :: ds) = UB.
Proof.
  eexists. split; [unfold make_eat; reval; reflexivity|]. intros xi ds X. unfold ea_sample, rbind, rlift, draw. cbn [ea_cdf ea_interp ea_pdf ea_energy ea_angles].
  rewrite (lower_boundR_eq [0; 1] xi 1).
  - cbn [bind]. unfold pc_histogram, ea_pc. cbn. reflexivity.
  - apply increasing_step. intros k H1 H2. assert (k = 0)%Z as -> by (cbn in H2; lia). getz. lra.
  - split; [cbn; lia|]. split; intros j Hj; [assert (j = 0)%Z as -> by lia|assert (j = 1)%Z as -> by (cbn in Hj; lia)]; getz; lra.
Qed.
Lemma make_eat_empty energy pdf angles i : make_eat (T := R) energy pdf [] angles i = UB \/ make_eat (T := R) energy pdf [] angles i = Throw.
Proof. unfold make_eat. destruct (table_interp i); [|right; reflexivity]. cbn [guard bind]. destruct (is_sorted energy); [left; reflexivity|right; reflexivity]. Qed.
Lemma make_kt_empty i : table_interp i = true -> make_kt (T := R) [] [] [] [] [] i = UB.
Proof. intros H. unfold make_kt. rewrite H. reflexivity. Qed.
