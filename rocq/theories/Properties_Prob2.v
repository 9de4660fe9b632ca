(** * C88: sampled cosines and tabulated energies follow the density *)
From Coq Require Import Reals Lra Lia List Arith ZifyBool ZifyNat. From Coquelicot Require Import Coquelicot.
From Verif Require Properties_Angle. From Verif Require Import Base NumR M_Interp M_PC S_PC S_Legendre M_Legendre M_OutE S_OutE L_Search L_SearchR L_PC L_PCR L_Legendre L_Angle L_OutE L_OutE3 L_OutE4 S_Prob L_Prob L_ProbEv L_ProbLaw L_LegBound L_LegMoment L_ProbAngle L_ProbTab. Import ListNotations.
Local Open Scope R_scope.

Theorem C88_isotropic_partial : has_density (al_sample (@isotropic R NumR)) (-1) 1 (fun _ => 1 / 2) /\
  exists f, (forall mu, al_pdf (@isotropic R NumR) mu = Ok (f mu)) /\ has_density (al_sample (@isotropic R NumR)) (-1) 1 f.
Proof.
  split; [|exact isotropic_density]. destruct isotropic_density as (f & F & D). apply (density_ext _ _ _ f); [|exact D]. intros x Hx. apply Ok_eq. rewrite <- F. cbn. rewrite (proj2 (Rltb_false x _)) by lra. rewrite (proj2 (Rltb_false 1 x)) by lra. cbn. f_equal; lra.
Qed.
Print Assumptions C88_isotropic_partial.

(** AngleTable: pdf is the density of the sampled cosines *)
Theorem C88_angle_table_partial (t t' : pctable R) : valid_pc t -> make_angle_table t = Ok t' ->
  exists f, (forall mu, al_pdf (angle_table t') mu = Ok (f mu)) /\ has_density (al_sample (angle_table t')) (-1) 1 f.
Proof. intros V M. exists (tdens t). exact (angle_table_density t t' V M). Qed.
Print Assumptions C88_angle_table_partial.

(** ... and an angle table is accepted exactly when its cosines lie in [-1,1] *)
Theorem C88_angle_table_accepted_partial (t : pctable R) : valid_pc t ->
  (make_angle_table t = Ok t <-> -1 <= first_of (pc_values t) /\ last_of (pc_values t) <= 1) /\ (make_angle_table t = Ok t \/ make_angle_table t = Throw).
Proof. exact (angle_table_accepted t). Qed.
Print Assumptions C88_angle_table_accepted_partial.

(** Legendre: whenever the constructor's scan finds a bound of the density, pdf is the density of the sampled cosines *)
Theorem C88_legendre_partial (a : list R) (d : legd R) : make_leg a = Ok d -> (forall mu, -1 <= mu <= 1 -> 0 <= series 0 (1 :: a) mu) ->
  (forall mu, -1 <= mu <= 1 -> series 0 (1 :: a) mu <= lg_max d) -> 0 < lg_max d -> has_density (leg_sample d) (-1) 1 (leg_pdf (lg_a d)).
Proof. exact (legendre_density a d). Qed.
Print Assumptions C88_legendre_partial.

(** ... which it does for any density with at most six moments *)
Theorem C88_legendre_six_partial (a : list R) (d : legd R) : make_leg a = Ok d -> (forall mu, -1 <= mu <= 1 -> 0 <= series 0 (1 :: a) mu) ->
  (length a <= 6)%nat -> has_density (leg_sample d) (-1) 1 (leg_pdf (lg_a d)).
Proof.
  intros M Pos L. pose proof (curvature_six a L (moment_bound a Pos)) as C. destruct (leg_max_bound a d M Pos C) as [P Q]. exact (legendre_density a d M Pos Q P).
Qed.
Print Assumptions C88_legendre_six_partial.

(** AngleDistribution: if the laws at the grid energies follow their densities, so does the distribution at every energy *)
Theorem C88_angle_distribution_partial (energy : list R) (laws : list (alaw R)) (a : adist R) (E : R) : make_adist energy laws = Ok a -> (1 <= sizeZ energy)%Z ->
  (forall l, In l laws -> cosine_law l /\ exists f, (forall mu, al_pdf l mu = Ok (f mu)) /\ has_density (al_sample l) (-1) 1 f) ->
  exists f, (forall mu, adist_pdf a E mu = Ok (f mu)) /\ has_density (adist_sample a E) (-1) 1 f.
Proof. exact (adist_density energy laws a E). Qed.
Print Assumptions C88_angle_distribution_partial.

(** Kalbach: the cosine drawn for given a and r follows the Kalbach-Mann formula *)
Theorem C88_kalbach_cosine_partial (a r : R) : 0 < a -> 0 <= r <= 1 -> has_density (kal_mu r a) (-1) 1 (fun mu => a / (2 * sinh a) * (cosh (a * mu) + r * sinh (a * mu))).
Proof. exact (kal_mu_density a r). Qed.
Print Assumptions C88_kalbach_cosine_partial.

(** TabularEnergy: the sampled energies follow the mixture of the two bracketing tables, each stretched to the interpolated range *)
Theorem C88_tabular_energy_partial (energy : list R) tables d E l f t1 t2 p1 p2 : make_tabe energy tables = Ok d -> (forall t, In t tables -> valid_pc t) ->
  bracket energy E l f -> atZ tables l = Ok t1 -> atZ tables (l + 1) = Ok t2 -> (forall x, pc_pdf t1 x = Ok (p1 x)) -> (forall x, pc_pdf t2 x = Ok (p2 x)) ->
  let a1 := first_of (pc_values t1) in let a2 := first_of (pc_values t2) in let b1 := last_of (pc_values t1) in let b2 := last_of (pc_values t2) in
  let lo := mix f a1 a2 in let hi := mix f b1 b2 in
  has_density (te_sample d E) lo hi (fun x => (1 - f) * stretched p1 a1 b1 lo hi x + f * stretched p2 a2 b2 lo hi x).
Proof.
  intros M V B E1 E2 P1 P2 a1 a2 b1 b2 lo hi. pose proof (te_density energy tables d E l f t1 t2 M V B E1 E2) as D. cbv zeta in D. fold a1 a2 b1 b2 lo hi in D. apply (density_ext _ _ _ _ _ (fun x _ => te_dens_ext t1 t2 p1 p2 f a1 a2 b1 b2 lo hi x (V t1 (atZ_In _ _ _ E1)) (V t2 (atZ_In _ _ _ E2)) P1 P2) D).
Qed.
Print Assumptions C88_tabular_energy_partial.

(** ... which is pdf when E is at or outside the grid points or the two tables are equally wide *)
Theorem C88_tabular_energy_pdf_partial (energy : list R) tables d E l f t1 t2 (g : R -> R) : make_tabe energy tables = Ok d -> (forall t, In t tables -> valid_pc t) ->
  bracket energy E l f -> atZ tables l = Ok t1 -> atZ tables (l + 1) = Ok t2 ->
  let a1 := first_of (pc_values t1) in let a2 := first_of (pc_values t2) in let b1 := last_of (pc_values t1) in let b2 := last_of (pc_values t2) in
  (f = 0 \/ f = 1 \/ b1 - a1 = b2 - a2) -> (forall x, te_pdf d E x = Ok (g x)) -> has_density (te_sample d E) (mix f a1 a2) (mix f b1 b2) g.
Proof. exact (te_pdf_density energy tables d E l f t1 t2 g). Qed.
Print Assumptions C88_tabular_energy_pdf_partial.

(** ... and is not in general: the samples at 3/2 between a uniform table on [0,1] and one on [0,3] do not follow pdf *)
Theorem C88_tabular_energy_pdf_refuted : exists d, make_tabe [1; 2] [uni 1; uni 3] = Ok d /\ (forall t, In t [uni 1; uni 3] -> valid_pc t) /\
  forall g, (forall x, te_pdf d (3 / 2) x = Ok (g x)) -> ~ has_density (te_sample d (3 / 2)) 0 2 g.
Proof. exact te_pdf_not_density. Qed.
Print Assumptions C88_tabular_energy_pdf_refuted.

(** EquiprobableAngleBins: the samples do not follow pdf, even for 32 equal bins *)
Theorem C88_equiprobable_angle_bins_refuted (f : R -> R) : make_bins ub = Ok ub /\ ((forall mu, al_pdf (angle_bins ub) mu = Ok (f mu)) -> ~ has_density (al_sample (angle_bins ub)) (-1) 1 f).
Proof. split; [exact ub_ok|exact (bins_not_density f)]. Qed.
Print Assumptions C88_equiprobable_angle_bins_refuted.

Example C88_angle_table_case : exists t, make_pc [-1; 0; 1] [1/4; 3/4; 1/4] [0; 1/2; 1] LinLin = Ok t /\ valid_pc t /\ make_angle_table t = Ok t.
Proof.
  exists (mkPC [-1; 0; 1] [1/4; 3/4; 1/4] [0; 1/2; 1] LinLin). assert (V : valid_pc (mkPC [-1; 0; 1] [1/4; 3/4; 1/4] [0; 1/2; 1] LinLin)) by exact Properties_Angle.C11_nonvacuous.
  split; [apply Properties_Angle.C11_valid_tables_accepted; exact Properties_Angle.C11_nonvacuous|]. split; [exact V|]. apply (C88_angle_table_accepted_partial _ V). unfold first_of, last_of. cbn. unfold getR. cbn. change (Pos.to_nat 2) with 2%nat. cbn. lra.
Qed.
Example C88_legendre_case : exists d : legd R, make_leg [1/4] = Ok d /\ has_density (leg_sample d) (-1) 1 (leg_pdf (lg_a d)).
Proof.
  destruct leg_example as (d & M). exists d. split; [exact M|]. apply (C88_legendre_six_partial [1/4] d M); [|cbn; lia].
  intros mu H. cbn. lra.
Qed.
Example C88_angle_distribution_case : exists a : adist R, make_adist [1; 2] [isotropic; isotropic] = Ok a /\ exists f, (forall mu, adist_pdf a (3/2) mu = Ok (f mu)) /\ has_density (adist_sample a (3/2)) (-1) 1 f.
Proof.
  exists (mkADist [1; 2] [isotropic; isotropic]). assert (M : make_adist [1; 2] [isotropic; isotropic] = Ok (mkADist [1; 2] [@isotropic R NumR; isotropic])).
  { unfold make_adist. cbn. rdec. reflexivity. }
  split; [exact M|]. apply (C88_angle_distribution_partial _ _ _ (3/2) M); [cbn; lia|]. intros l H. assert (l = isotropic) as -> by (destruct H as [<-|[<-|[]]]; reflexivity). split; [exact Properties_Angle.C14_isotropic|exact isotropic_density].
Qed.
Example C88_tabular_energy_case : exists d, make_tabe [1; 2] [uni 1; uni 3] = Ok d /\ bracket [1; 2] (3 / 2) 0 (1 / 2) /\ valid_pc (uni 1) /\ valid_pc (uni 3).
Proof.
  exists (mkTabE [1; 2] [uni 1; uni 3]). split; [apply make_tabe_ok; [apply inc12|reflexivity]|]. split; [|split; apply uni_valid; lra].
  unfold bracket. split; [lia|]. split; [unfold sizeZ; cbn; lia|]. right. right. getz. split; lra.
Qed.
