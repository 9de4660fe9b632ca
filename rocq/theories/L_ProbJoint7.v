(** * The joint pdfs are not the sampled densities *)
From Coq Require Import Reals Lra Lia List Arith ZifyBool ZifyNat. From Coquelicot Require Import Coquelicot.
From Verif Require Import Base NumR M_Interp M_PC S_PC M_OutE S_OutE L_Search L_SearchR L_PC L_PCR L_Interp2 L_Legendre L_Angle L_OutE L_OutE2 L_OutE3 L_OutE4 L_OutE5 S_Prob L_Prob L_ProbEv L_ProbLaw L_ProbAngle L_ProbDbrc S_JointLaw L_ProbJoint L_ProbJoint2 L_ProbJoint3 L_ProbJoint4 L_ProbJoint5 L_ProbJoint6. Import ListNotations.
Local Open Scope R_scope.
Local Notation iR := (@is_RInt R_NormedModule).

Lemma make_kal_ok energy (tables : list (kt R)) : increasing energy -> length energy = length tables -> make_kal energy tables = Ok (mkKal energy tables).
Proof. intros I L. unfold make_kal. rewrite (proj2 (is_sorted_increasing energy) I), (proj2 (Nat.eqb_eq _ _) L). reflexivity. Qed.
Lemma make_tea_ok energy (tables : list (eat R)) : increasing energy -> length energy = length tables -> make_tea energy tables = Ok (mkTEA energy tables).
Proof. intros I L. unfold make_tea. rewrite (proj2 (is_sorted_increasing energy) I), (proj2 (Nat.eqb_eq _ _) L). reflexivity. Qed.
Lemma bracket12 : bracket [1; 2] (3 / 2) 0 (1 / 2).
Proof. split; [lia|]. split; [cbn; lia|]. right; right. getz. lra. Qed.
(** ** linear tables of parameters *)
Definition ktA : kt R := mkKT [0; 1] [1; 1] [0; 1] [0; 0] [1; 21] LinLin.
Lemma flat_table : valid_table [0; 1] [1; 1] [0; 1] LinLin.
Proof.
  split; try reflexivity.
  - right; reflexivity.
  - cbn. lia.
  - apply increasing_step. intros k H1 H2. assert (k = 0)%Z as -> by (cbn in H2; lia). getz. lra.
  - intros p [<-|[<-|[]]]; lra.
  - intros k H1 H2. assert (k = 0)%Z as -> by (cbn in H2; lia). getz. cbn [seg_area]. lra.
Qed.
Lemma ktA_good : good_kt ktA.
Proof. split; [split; [exact flat_table|reflexivity|reflexivity]|]. split; [intros a [<-|[<-|[]]]; lra|intros a [<-|[<-|[]]]; lra]. Qed.
Lemma between01 h : 0 < h < 1 -> between [0; 1] 0 h.
Proof. intros H. split; [lia|]. split; [cbn; lia|]. getz. lra. Qed.
Lemma flat_dens h : 0 < h < 1 -> tdens (mkPC [0; 1] [1; 1] [0; 1] LinLin) h = 1.
Proof. intros H. rewrite (line_dens (mkPC [0; 1] [1; 1] [0; 1] LinLin) flat_table 0 h (between01 h H)). unfold line. cbn [pc_interp pc_pdfs pc_values]. getz. field. Qed.
Lemma cosh_exp x : 0 < cosh x /\ / cosh x <= 2 * exp (- x).
Proof.
  pose proof (exp_pos x). pose proof (exp_pos (- x)). assert (P : 0 < cosh x) by (unfold cosh; lra). split; [exact P|]. apply (Rmult_le_reg_r (cosh x)); [exact P|]. rewrite Rinv_l by lra. unfold cosh.
  assert (X : exp x * exp (- x) = 1) by (rewrite <- exp_plus; replace (x + - x) with 0 by ring; apply exp_0). nra.
Qed.
Lemma kcum_half a : 0 < a -> kcum (-1 / 2) a 0 = 1 / 2 - / (4 * cosh (a / 2)).
Proof.
  intros Ha. unfold kcum. replace (a * -1) with (- a) by ring. replace (a * (-1 / 2)) with (- (a / 2)) by field. unfold sinh at 1 2. rewrite !Ropp_involutive. fold (sinh a).
  assert (S2 : sinh a = 2 * sinh (a / 2) * cosh (a / 2)).
  { unfold sinh, cosh. replace (exp a) with (exp (a / 2) * exp (a / 2)) by (rewrite <- exp_plus; f_equal; field). replace (exp (- a)) with (exp (- (a / 2)) * exp (- (a / 2))) by (rewrite <- exp_plus; f_equal; field). field. }
  pose proof (sinh_pos (a / 2) ltac:(lra)) as P. pose proof (proj1 (cosh_exp (a / 2))) as C.
  replace ((exp (- (a / 2)) - exp (a / 2)) / 2) with (- sinh (a / 2)) by (unfold sinh; field). replace ((exp (- a) - exp a) / 2) with (- sinh a) by (unfold sinh; field). rewrite S2. field. lra.
Qed.
Lemma kalbach_inner a m : 0 < a -> iR (fun mu => kalbach_density a 0 mu) (-1) m (kcum m a 0).
Proof. intros Ha. unfold kcum. apply (kalbach_cdf a 0 (-1) m). lra. Qed.
Lemma kal_linear_refuted : exists d rep, make_kal [1; 2] [ktA; ktA] = Ok d /\ (forall mu x, 0 < x < 1 -> kal_pdf d (3 / 2) mu x = Ok (rep mu x)) /\ ~ joint_law (kal_sample d (3 / 2)) 0 1 rep.
Proof.
  exists (mkKal [1; 2] [ktA; ktA]), (fun mu x => mix x (kalbach_density 1 0 mu) (kalbach_density 21 0 mu)).
  assert (M : make_kal [1; 2] [ktA; ktA] = Ok (mkKal [1; 2] [ktA; ktA])) by (apply make_kal_ok; [exact inc12|reflexivity]).
  assert (G : forall t, In t [ktA; ktA] -> good_kt t) by (intros t [<-|[<-|[]]]; exact ktA_good). pose proof ktA_good as Gk. pose proof (proj1 Gk) as V.
  split; [exact M|]. split.
  - intros mu x Hx.
    assert (Y : k_pdf2 ktA mu x = Ok (mix x (kalbach_density 1 0 mu) (kalbach_density 21 0 mu))).
    { rewrite (k_pdf_value ktA mu 0 x V) by (try (cbn; lia); cbn [ktA k_energy]; getz; lra). cbn [ktA k_interp k_energy k_A k_R k_pdf]. getz. rewrite !mu_p_density by lra. f_equal. unfold mix. field. }
    rewrite (kal_pdf_eq [1; 2] [ktA; ktA] _ (3 / 2) 0 (1 / 2) ktA ktA mu x M (fun t Ht => proj1 (G t Ht)) bracket12 eq_refl eq_refl (mix x (kalbach_density 1 0 mu) (kalbach_density 21 0 mu)) (mix x (kalbach_density 1 0 mu) (kalbach_density 21 0 mu))); [f_equal; field|..].
    + change (first_of (k_energy ktA)) with 0. change (last_of (k_energy ktA)) with 1. replace (mix (1 / 2) 0 0) with 0 by (unfold mix; lra). replace (mix (1 / 2) 1 1) with 1 by (unfold mix; lra). rewrite unit_base_inv_same by lra. exact Y.
    + change (first_of (k_energy ktA)) with 0. change (last_of (k_energy ktA)) with 1. replace (mix (1 / 2) 0 0) with 0 by (unfold mix; lra). replace (mix (1 / 2) 1 1) with 1 by (unfold mix; lra). rewrite unit_base_inv_same by lra. exact Y.
  - intros H.
    pose proof (kal_joint [1; 2] [ktA; ktA] _ (3 / 2) 0 (1 / 2) ktA ktA _ _ _ _ _ _ M G bracket12 eq_refl eq_refl (fun h => tdens_ok (kt_pc ktA) h (vk_table ktA V)) (fun h => tdens_ok (kt_pc ktA) h (vk_table ktA V))
      (fun h => par_ok ktA (k_A ktA) h V (vk_A ktA V)) (fun h => par_ok ktA (k_R ktA) h V (vk_R ktA V)) (fun h => par_ok ktA (k_A ktA) h V (vk_A ktA V)) (fun h => par_ok ktA (k_R ktA) h V (vk_R ktA V))) as K.
    cbv zeta in K. change (first_of (k_energy ktA)) with 0 in K. change (last_of (k_energy ktA)) with 1 in K. replace (mix (1 / 2) 0 0) with 0 in K by (unfold mix; lra). replace (mix (1 / 2) 1 1) with 1 in K by (unfold mix; lra).
    apply (joint_ext _ _ _ _ (fun mu h => kalbach_density (1 + 20 * h) 0 mu)) in K.
    2: { intros mu h Hh. rewrite !stretched_pair_same by lra. change (kt_pc ktA) with (mkPC [0; 1] [1; 1] [0; 1] LinLin). rewrite (flat_dens h Hh). rewrite !(par_line ktA _ 0 h V) by (try reflexivity; exact (between01 h Hh)). unfold pline. cbn [ktA k_interp k_energy k_A k_R]. getz.
         replace (1 + (h - 0) * ((21 - 1) / (1 - 0))) with (1 + 20 * h) by field. replace (0 + (h - 0) * ((0 - 0) / (1 - 0))) with 0 by field. field. }
    destruct K as [_ K]. destruct (K (-1 / 2) 1 ltac:(lra) ltac:(lra)) as (g & J & G1 & G2 & G3).
    assert (Lw : 9 / 20 <= J).
    { assert (Q : iR (fun h => 1 / 2 - / 2 * exp (-10 * h)) 0 1 (1 / 2 - (1 - exp (-10)) / 20)).
      { eapply iR_eq; [|apply (@is_RInt_derive R_CompleteNormedModule (fun h => h / 2 + exp (-10 * h) / 20))]. 1: { change (1 / 2 + exp (-10 * 1) / 20 - (0 / 2 + exp (-10 * 0) / 20) = 1 / 2 - (1 - exp (-10)) / 20). rewrite Rmult_0_r, exp_0. replace (-10 * 1) with (-10) by ring. lra. }
        - intros h _. auto_derive; [exact I|]. field.
        - intros h _. apply (@ex_derive_continuous R_AbsRing R_NormedModule). auto_derive. exact I. }
      assert (Le : 1 / 2 - (1 - exp (-10)) / 20 <= J).
      { apply (is_RInt_le _ _ 0 1 _ _ ltac:(lra) Q G2). intros h Hh. assert (Eg : g h = kcum (-1 / 2) (1 + 20 * h) 0) by (transitivity (RInt (fun mu => kalbach_density (1 + 20 * h) 0 mu) (-1) (-1 / 2)); [symmetry|]; apply (@is_RInt_unique R_CompleteNormedModule); [apply G1; exact Hh|apply kalbach_inner; lra]).
        rewrite Eg, kcum_half by lra. destruct (cosh_exp ((1 + 20 * h) / 2)) as [C1 C2]. rewrite Rinv_mult. assert (exp (- ((1 + 20 * h) / 2)) <= exp (-10 * h)) by (left; apply exp_increasing; lra). pose proof (exp_pos (-10 * h)). lra. }
      pose proof (exp_pos (-10)). lra. }
    assert (Jr : iR (fun h => (1 - h) * kcum (-1 / 2) 1 0 + h * kcum (-1 / 2) 21 0) 0 1 ((kcum (-1 / 2) 1 0 + kcum (-1 / 2) 21 0) / 2)).
    { set (u := kcum (-1 / 2) 1 0). set (w := kcum (-1 / 2) 21 0). eapply iR_eq; [|apply (@is_RInt_derive R_CompleteNormedModule (fun h => (h - h * h / 2) * u + h * h / 2 * w))]; [change ((1 - 1 * 1 / 2) * u + 1 * 1 / 2 * w - ((0 - 0 * 0 / 2) * u + 0 * 0 / 2 * w) = (u + w) / 2); field|..].
      - intros h _. auto_derive; [exact I|]. field.
      - intros h _. apply (@ex_derive_continuous R_AbsRing R_NormedModule). auto_derive. exact I. }
    assert (LR : law (kal_sample (mkKal [1; 2] [ktA; ktA]) (3 / 2)) (fun v => fst v <= -1 / 2 /\ snd v <= 1) ((kcum (-1 / 2) 1 0 + kcum (-1 / 2) 21 0) / 2)).
    { refine (joint_cdf _ 0 1 _ _ _ (-1 / 2) 1 H ltac:(lra) ltac:(lra) _ Jr). intros h Hh. unfold mix. apply (@is_RInt_plus R_NormedModule (fun mu => (1 - h) * kalbach_density 1 0 mu) (fun mu => h * kalbach_density 21 0 mu)); apply (@is_RInt_scal R_NormedModule); apply kalbach_inner; lra. }
    pose proof (law_unique _ _ _ _ LR G3) as U. rewrite !kcum_half in U by lra.
    assert (C1 : cosh (1 / 2) <= 3 / 2).
    { unfold cosh. assert (exp (- (1 / 2)) <= 1) by (rewrite <- exp_0 at 2; left; apply exp_increasing; lra). assert (exp (1 / 2) <= 2); [|lra]. apply Rnot_lt_le. intros Q. assert (X : exp (1 / 2) * exp (1 / 2) = exp 1) by (rewrite <- exp_plus; f_equal; field). pose proof exp_le_3. nra. }
    destruct (cosh_exp (1 / 2)) as [P1 _]. destruct (cosh_exp (21 / 2)) as [P2 _]. assert (/ (4 * cosh (1 / 2)) >= / 6). { apply Rle_ge, Rinv_le_contravar; lra. } assert (0 < / (4 * cosh (21 / 2))) by (apply Rinv_0_lt_compat; lra). lra.
Qed.
(** ** the missing stretch *)
Definition kuni (b : R) : kt R := mkKT [0; b] [/ b; / b] [0; 1] [0; 0] [1; 1] Histogram.
Lemma kuni_good b : 0 < b -> good_kt (kuni b).
Proof. intros Hb. split; [split; [exact (uni_valid b Hb)|reflexivity|reflexivity]|]. split; [intros a [<-|[<-|[]]]; lra|intros a [<-|[<-|[]]]; lra]. Qed.
Lemma kuni_pdf b mu x : 0 < b -> 0 < x < b -> k_pdf2 (kuni b) mu x = Ok (kalbach_density 1 0 mu * / b).
Proof.
  intros Hb Hx. rewrite (k_pdf_value (kuni b) mu 0 x (proj1 (kuni_good b Hb))) by (try (cbn; lia); cbn [kuni k_energy]; getz; lra). cbn [kuni k_interp k_A k_R k_pdf]. getz. rewrite !mu_p_density by lra. reflexivity.
Qed.
Lemma kal_stretch_refuted : exists d rep, make_kal [1; 2] [kuni 1; kuni 3] = Ok d /\ (forall mu x, 0 < x < 2 -> kal_pdf d (3 / 2) mu x = Ok (rep mu x)) /\ ~ joint_law (kal_sample d (3 / 2)) 0 2 rep.
Proof.
  exists (mkKal [1; 2] [kuni 1; kuni 3]), (fun mu x => 2 / 3 * kalbach_density 1 0 mu).
  assert (M : make_kal [1; 2] [kuni 1; kuni 3] = Ok (mkKal [1; 2] [kuni 1; kuni 3])) by (apply make_kal_ok; [exact inc12|reflexivity]).
  assert (G : forall t, In t [kuni 1; kuni 3] -> good_kt t) by (intros t [<-|[<-|[]]]; apply kuni_good; lra).
  split; [exact M|]. split.
  - intros mu x Hx. rewrite (kal_pdf_eq [1; 2] [kuni 1; kuni 3] _ (3 / 2) 0 (1 / 2) (kuni 1) (kuni 3) mu x M (fun t Ht => proj1 (G t Ht)) bracket12 eq_refl eq_refl (kalbach_density 1 0 mu * / 1) (kalbach_density 1 0 mu * / 3)); [f_equal; field|..].
    + change (first_of (k_energy (kuni 1))) with 0. change (last_of (k_energy (kuni 1))) with 1. change (first_of (k_energy (kuni 3))) with 0. change (last_of (k_energy (kuni 3))) with 3. apply kuni_pdf; [lra|]. unfold unit_base_inv, mix. rnum. lra.
    + change (first_of (k_energy (kuni 1))) with 0. change (last_of (k_energy (kuni 1))) with 1. change (first_of (k_energy (kuni 3))) with 0. change (last_of (k_energy (kuni 3))) with 3. apply kuni_pdf; [lra|]. unfold unit_base_inv, mix. rnum. lra.
  - intros H. assert (L : law (kal_sample (mkKal [1; 2] [kuni 1; kuni 3]) (3 / 2)) (fun v => fst v <= 1 /\ snd v <= 2) (4 / 3)).
    { refine (joint_cdf _ 0 2 _ (fun _ => 2 / 3) _ 1 2 H ltac:(lra) ltac:(lra) _ _).
      - intros h Hh. eapply iR_eq; [|apply (@is_RInt_scal R_NormedModule (fun mu => kalbach_density 1 0 mu)), (kalbach_inner 1 1); lra]. unfold kcum. replace (1 * 1) with 1 by ring. replace (1 * -1) with (- (1)) by ring. replace (sinh (- (1))) with (- sinh 1) by (unfold sinh; rewrite Ropp_involutive; field). pose proof (sinh_pos 1 ltac:(lra)). change (2 / 3 * ((sinh 1 - - sinh 1 + 0 * (cosh 1 - cosh (- (1)))) / (2 * sinh 1)) = 2 / 3). field. lra.
      - eapply iR_eq; [|apply (iR_const_on (fun _ => 2 / 3) 0 2 (2 / 3)); [lra|reflexivity]]; lra. }
    apply law_bounds in L. lra.
Qed.
(** ** one angular table where the energies are equally likely *)
Definition back_pc : pctable R := mkPC [-1; 0] [1; 1] [0; 1] Histogram.
Lemma back_valid : valid_pc back_pc.
Proof.
  split; try reflexivity.
  - left; reflexivity.
  - cbn. lia.
  - apply increasing_step. intros k H1 H2. assert (k = 0)%Z as -> by (cbn in H2; lia). cbn [back_pc pc_values]. getz. lra.
  - intros p [<-|[<-|[]]]; lra.
  - intros k H1 H2. assert (k = 0)%Z as -> by (cbn in H2; lia). cbn [back_pc pc_values pc_pdfs pc_cdf pc_interp]. getz. cbn [seg_area]. lra.
Qed.
Definition eatL : eat R := mkEAT [0; 1] [1; 1] [0; 1] [back_pc; uni 1] LinLin.
Lemma eatL_valid : valid_eat eatL /\ cosines_in eatL.
Proof.
  split; [split; [exact flat_table|reflexivity|]|].
  - intros a [<-|[<-|[]]]; [exact back_valid|apply uni_valid; lra].
  - intros a [<-|[<-|[]]]; cbn [back_pc uni pc_values]; unfold first_of, last_of; cbn [sizeZ length Z.of_nat Pos.of_succ_nat Pos.succ Z.sub Z.opp Z.add Z.pos_sub Pos.pred_double]; getz; lra.
Qed.
Lemma tea_flat_refuted : exists d, make_tea [1; 2] [eatL; eatL] = Ok d /\ law (tea_sample d (3 / 2)) (fun v => fst v <= 0 /\ snd v <= 1) 1 /\ forall mu x, 0 < mu < 1 -> 0 < x < 1 -> tea_pdf d (3 / 2) mu x = Ok x.
Proof.
  exists (mkTEA [1; 2] [eatL; eatL]). assert (M : make_tea [1; 2] [eatL; eatL] = Ok (mkTEA [1; 2] [eatL; eatL])) by (apply make_tea_ok; [exact inc12|reflexivity]).
  assert (G : forall t, In t [eatL; eatL] -> valid_eat t /\ cosines_in t) by (intros t [<-|[<-|[]]]; exact eatL_valid). pose proof (proj1 eatL_valid) as V.
  split; [exact M|]. split.
  - assert (AT : forall k h, between (ea_energy eatL) k h -> angular_table eatL h back_pc).
    { intros k h B. exists k. split; [exact B|]. destruct B as (B1 & B2 & _). assert (k = 0)%Z as -> by (cbn in B2; lia). left. split; [|reflexivity]. left. right. reflexivity. }
    assert (IT : forall h : R, In back_pc (ea_angles eatL)) by (intros _; left; reflexivity).
    pose proof (tea_joint [1; 2] [eatL; eatL] _ (3 / 2) 0 (1 / 2) eatL eatL _ _ (fun _ => back_pc) (fun _ => back_pc) _ _ M G bracket12 eq_refl eq_refl (fun h => tdens_ok (ea_pc eatL) h (ve_table eatL V)) (fun h => tdens_ok (ea_pc eatL) h (ve_table eatL V)) IT IT AT AT
      (fun mu _ => tdens_ok back_pc mu back_valid) (fun mu _ => tdens_ok back_pc mu back_valid)) as K.
    cbv zeta in K. change (first_of (ea_energy eatL)) with 0 in K. change (last_of (ea_energy eatL)) with 1 in K. replace (mix (1 / 2) 0 0) with 0 in K by (unfold mix; lra). replace (mix (1 / 2) 1 1) with 1 in K by (unfold mix; lra).
    apply (joint_ext _ _ _ _ (fun mu h => tdens back_pc mu)) in K.
    2: { intros mu h Hh. rewrite !stretched_pair_same by lra. change (ea_pc eatL) with (mkPC [0; 1] [1; 1] [0; 1] LinLin). rewrite (flat_dens h Hh). field. }
    assert (L : law (tea_sample (mkTEA [1; 2] [eatL; eatL]) (3 / 2)) (fun v => fst v <= 0 /\ snd v <= 1) 1).
    { refine (joint_cdf _ 0 1 _ (fun _ => 1) _ 0 1 K ltac:(lra) ltac:(lra) _ _).
      - intros h _. pose proof (t_one back_pc back_valid) as O. exact O.
      - eapply iR_eq; [|apply (iR_const_on (fun _ => 1) 0 1 1); [lra|reflexivity]]; lra. }
    exact L.
  - intros mu x Hmu Hx.
    assert (Y : ea_pdf2 eatL mu x = Ok x).
    { rewrite (ea_pdf_value eatL mu 0 x V) by (try (cbn; lia); cbn [eatL ea_energy]; getz; lra). cbn [eatL ea_interp ea_energy ea_pdf]. change (ea_angle eatL 0) with back_pc. change (ea_angle eatL (0 + 1)) with (uni 1). getz. unfold pdf_at. rewrite (tdens_ok back_pc mu back_valid), (tdens_ok (uni 1) mu (uni_valid 1 ltac:(lra))).
      rewrite (tdens_outside back_pc mu back_valid) by (right; change (last_of (pc_values back_pc)) with 0; lra). rewrite (line_dens (uni 1) (uni_valid 1 ltac:(lra)) 0 mu) by (exact (between01 mu Hmu)). unfold line. cbn [uni pc_interp pc_pdfs]. getz. f_equal. unfold mix. field. }
    rewrite (tea_pdf_eq [1; 2] [eatL; eatL] _ (3 / 2) 0 (1 / 2) eatL eatL mu x M (fun t Ht => proj1 (G t Ht)) bracket12 eq_refl eq_refl x x); [f_equal; field|..].
    + change (first_of (ea_energy eatL)) with 0. change (last_of (ea_energy eatL)) with 1. replace (mix (1 / 2) 0 0) with 0 by (unfold mix; lra). replace (mix (1 / 2) 1 1) with 1 by (unfold mix; lra). rewrite unit_base_inv_same by lra. exact Y.
    + change (first_of (ea_energy eatL)) with 0. change (last_of (ea_energy eatL)) with 1. replace (mix (1 / 2) 0 0) with 0 by (unfold mix; lra). replace (mix (1 / 2) 1 1) with 1 by (unfold mix; lra). rewrite unit_base_inv_same by lra. exact Y.
Qed.
