(** * Joint densities of combined distributions *)
From Coq Require Import Reals Lra Lia List ZifyBool ZifyNat. From Coquelicot Require Import Coquelicot.
From Verif Require Import Base NumR M_Interp M_Tab1D M_Func M_Grid M_PC M_OutE M_Spectra M_Kin S_Spectra S_Prob S_Mix L_Search L_Legendre L_Prob L_ProbEv L_ProbLaw L_ProbLoop L_Spectra5 S_Replay L_Replay L_ProbComp L_ProbComp2 M_Laws M_Ace M_Neutron S_Neutron S_Laws L_ProbAngle L_LawsEx Properties_Angle.
Import ListNotations.
Local Open Scope R_scope.
Local Notation iR := (@is_RInt R_NormedModule).

Lemma iR_mul (f : R -> R) a b c u : iR f a b u -> iR (fun t => c * f t) a b (c * u).
Proof. intros H. exact (is_RInt_scal f a b c u H). Qed.
Lemma iR_mulr (f : R -> R) a b c u : iR f a b u -> iR (fun t => f t * c) a b (c * u).
Proof. intros H. apply (is_RInt_ext (fun t => c * f t)); [|apply iR_mul, H]. intros t _. match goal with |- ?a = ?b => change (@eq R a b) end. ring. Qed.
Lemma iR_add (f g : R -> R) a b u v : iR f a b u -> iR g a b v -> iR (fun t => f t + g t) a b (u + v).
Proof. intros H K. exact (is_RInt_plus f g a b u v H K). Qed.
Lemma uc_joint (d : uncor R) E a b fa fe : replayable (adist_sample (uc_angle d) E) -> replayable (el_sample (uc_energy d) E) -> has_density (adist_sample (uc_angle d) E) (-1) 1 fa -> has_density (el_sample (uc_energy d) E) a b fe ->
  has_joint_density (uc_sample d E) a b (fun mu x => fe x * fa mu).
Proof.
  intros R1 R2 D1 D2. destruct (uc_density d E a b fa fe R1 R2 D1 D2) as [T H]. split; [exact T|].
  intros m x Hm Hx. destruct (H m x Hm Hx) as (p & q & Ip & Iq & L). exists (fun mu => fa mu * q), (q * p). split; [|split; [apply iR_mulr, Ip|eapply law_val; [|exact L]; apply Rmult_comm]].
  intros mu _. exact (iR_mulr fe a x (fa mu) q Iq).
Qed.
Lemma weigh_weighted : forall p q, weigh p q = weighted p q. Proof. induction p as [|x p IH]; intros [|v q]; cbn; congruence. Qed.
Definition mixf (pv : list R) (fs : list (R -> R -> R)) (mu x : R) : R := weigh pv (map (fun f => f mu x) fs).
Lemma mix_joint E a b m x : -1 <= m <= 1 -> a <= x <= b -> forall (ds : list (aelaw R)) fs, Forall2 (fun d f => has_joint_density (ae_sample d E) a b f) ds fs -> forall pv, length pv = length ds ->
  exists (g : R -> R) qs, (forall mu, -1 <= mu <= m -> iR (mixf pv fs mu) a x (g mu)) /\ iR g (-1) m (weigh pv qs) /\ Forall2 (fun d q => law (ae_sample d E) (fun v => fst v <= m /\ snd v <= x) q) ds qs.
Proof.
  intros Hm Hx. induction 1 as [|d f ds fs [_ H] HF IH]; intros [|p pv] L; try discriminate.
  - exists (fun _ => 0), []. split; [|split; [|constructor]]; intros; (eapply iR_eq; [|apply (is_RInt_const _ _ 0)]); unfold scal; cbn; unfold mult; cbn; ring.
  - destruct (IH pv ltac:(cbn in L; lia)) as (g & qs & G1 & G2 & G3). destruct (H m x Hm Hx) as (h & J & H1 & H2 & H3). exists (fun mu => p * h mu + g mu), (J :: qs). split; [|split; [|constructor; assumption]].
    + intros mu Hmu. apply (iR_add (fun t => p * f mu t) (mixf pv fs mu)); [apply iR_mul, H1, Hmu|apply G1, Hmu].
    + cbn [weigh]. apply (iR_add (fun t => p * h t) g); [apply iR_mul, H2|exact G2].
Qed.
Lemma weigh_ones : forall pv (ds : list (aelaw R)), length pv = length ds -> weigh pv (map (fun _ => 1) ds) = total pv.
Proof. induction pv as [|p pv IH]; intros [|d ds] L; try discriminate; cbn; [reflexivity|]. rewrite IH by (cbn in L; lia). ring. Qed.
Lemma md_joint (m : multi R) E a b pv fs : md_dists m <> [] -> length (md_dists m) = length (md_probs m) -> evaluate_to (md_probs m) E pv -> Forall (fun p => 0 <= p) pv -> total pv = 1 ->
  Forall2 (fun d f => has_joint_density (ae_sample d E) a b f) (md_dists m) fs -> has_joint_density (md_sample m E) a b (mixf pv fs).
Proof.
  intros N L Ev Pos Tot H. assert (LP : length pv = length (md_dists m)). { rewrite L. clear - Ev. induction Ev; cbn; congruence. } split.
  - eapply law_val; [|apply (md_law m E pv (map (fun _ => 1) (md_dists m))); try assumption; [lra|]].
    + rewrite Tot, weigh_ones by exact LP. rewrite Tot. ring.
    + clear - H. induction H as [|d f ds fs [T _] HF IH]; cbn; constructor; assumption.
  - intros mm x Hm Hx. destruct (mix_joint E a b mm x Hm Hx _ _ H pv LP) as (g & qs & G1 & G2 & G3). exists g, (weigh pv qs). split; [exact G1|]. split; [exact G2|].
    eapply law_val; [|apply (md_law m E pv qs); try assumption; lra]. rewrite Tot. ring.
Qed.

Lemma draw_density : has_density (@draw R) 0 1 (fun _ => 1).
Proof.
  apply (density_inverse _ (fun x => x)); [lra|intros v r E; discriminate|intros; lra| |intros x ds _ _; reflexivity|].
  - eapply iR_eq; [|apply (iR_const_on (fun _ => 1) 0 1 1); [lra|reflexivity]]; ring.
  - intros x Hx. split; [lra|]. eapply iR_eq; [|apply (iR_const_on (fun _ => 1) 0 x 1); [lra|reflexivity]]; ring.
Qed.
Lemma law_draw_le c : 0 <= c <= 1 -> law (@draw R) (fun u => u <= c) c.
Proof.
  intros Hc. destruct draw_density as [_ H]. destruct (H c Hc) as (q & L & I). eapply law_val; [|exact L]. assert (J : iR (fun _ => 1) 0 c c) by (eapply iR_eq; [|apply (iR_const_on (fun _ => 1) 0 c 1); [lra|reflexivity]]; ring).
  pose proof (@is_RInt_unique R_CompleteNormedModule _ _ _ _ I) as X. pose proof (@is_RInt_unique R_CompleteNormedModule _ _ _ _ J) as Y. congruence.
Qed.
Lemma law_draw_any : law (@draw R) (fun _ => True) 1.
Proof. eapply law_ext01; [|exact (proj1 draw_density)]. intros v ds r O E. unfold draw in E. destruct ds as [|x ds]; [discriminate|]. injection E as -> ->. inversion O; subst. split; [tauto|intros _; lra]. Qed.
Lemma rp_draw1 : replayable (@draw R). Proof. exact rp_draw. Qed.
(** ** the cosine of N-body phase space is uniform and independent of the energy *)
Lemma sure_draw {A} (n : nat) (k : R -> rand R A) (phi : R -> list R -> A) : (forall x, 0 < x < 1 -> uses (k x) n (phi x)) -> (forall x l, (length l < n)%nat -> forall v r, k x l <> Ok (v, r)) -> uses (rbind draw k) (S n) (fun l => match l with x :: l' => phi x l' | [] => phi 0 [] end).
Proof.
  intros H H2. split.
  - intros l r Hl Fr. destruct l as [|x l]; [destruct Hl; discriminate|]. apply ud_cons in Hl as [Hx Hl]. cbn. apply (H x Hx); assumption.
  - intros l L v r. destruct l as [|x l]; [discriminate|]. cbn in L. cbn. apply H2. lia.
Qed.
Ltac short := let l := fresh "l" in let L := fresh "L" in intros l L; repeat (destruct l as [|? l]; [intros; discriminate|cbn [length] in L]); exfalso; lia.
Definition nb_energy (d : nbody R) (E : R) : rand R R := rlet! x := nb_maxwell in rlet! y := nb_y (nb_n d) in rret ((x / (x + y)) * nb_Emax d E).
Lemma nb_both (d : nbody R) E ds : nb_sample d E ds = both (nb_energy d E) draw (fun e u => (2 * u - 1, e)) ds.
Proof.
  unfold nb_sample, both, nb_energy, rbind, rret. destruct (nb_maxwell ds) as [[x d1]| | |]; try reflexivity. destruct (nb_y (nb_n d) d1) as [[y d2]| | |]; reflexivity.
Qed.
Lemma rp_nb_energy (d : nbody R) E : replayable (nb_energy d E). Proof. unfold nb_energy, nb_y, nb_maxwell. rp. Qed.
Lemma nb_energy_any (d : nbody R) E : law (nb_energy d E) (fun _ => True) 1.
Proof.
  assert (K : exists n phi, uses (nb_energy d E) n phi).
  { unfold nb_energy, nb_y. destruct (nb_n d =? 3)%Z; [|destruct (nb_n d =? 4)%Z; [|destruct (nb_n d =? 5)%Z]].
    - eexists 6%nat, (fun l => match l with [a; b; c; a'; b'; c'] => _ | _ => 0 end). split; [|short]. intros l r [L _] _. repeat (destruct l as [|? l]; try discriminate). cbn. reflexivity.
    - eexists 6%nat, (fun l => match l with [a; b; c; a'; b'; c'] => _ | _ => 0 end). split; [|short]. intros l r [L _] _. repeat (destruct l as [|? l]; try discriminate). cbn. reflexivity.
    - eexists 9%nat, (fun l => match l with [a; b; c; a'; b'; c'; d'; e'; f'] => _ | _ => 0 end). split; [|short]. intros l r [L _] _. repeat (destruct l as [|? l]; try discriminate). cbn. reflexivity.
    - eexists 3%nat, (fun l => match l with [a; b; c] => _ | _ => 0 end). split; [|short]. intros l r [L _] _. repeat (destruct l as [|? l]; try discriminate). cbn. reflexivity. }
  destruct K as (n & phi & U). apply (law_uses _ n phi); [exact U|]. apply prob_always. trivial.
Qed.
Lemma nb_cosine (d : nbody R) E (B : R -> Prop) q m : -1 <= m <= 1 -> law (nb_energy d E) B q -> law (nb_sample d E) (fun v => fst v <= m /\ B (snd v)) ((m + 1) / 2 * q).
Proof.
  intros Hm Hq. eapply law_same; [intros ds _; symmetry; apply nb_both|]. rewrite Rmult_comm. apply (law_both _ _ _ B (fun u => u <= (m + 1) / 2)); [apply rp_nb_energy|exact rp_draw1| |exact Hq|apply law_draw_le; lra].
  intros e u. cbn. split; intros [H1 H2]; (split; [|]); try assumption; lra.
Qed.
(** ** the example file *)
Lemma iso_law m : -1 <= m <= 1 -> law (adist_sample iso 3) (fun v => v <= m) ((m + 1) / 2).
Proof.
  intros Hm. assert (M : make_adist [/ 100000] [@isotropic R NumR] = Ok iso) by reflexivity.
  destruct (adist_density _ _ _ 3 M ltac:(cbn; lia)) as (f & P & D & L).
  { intros l [<-|[]]. split; [exact Properties_Angle.C14_isotropic|exact isotropic_density]. }
  destruct (L m Hm) as (q & Lq & I). eapply law_val; [|exact Lq]. assert (J : iR f (-1) m ((m - -1) * (1/2))).
  { apply iR_const_on; [lra|]. intros x Hx. specialize (P x). unfold adist_pdf, iso in P. cbn in P. revert P. rdec. cbn. intros P. injection P as <-. reflexivity. }
  pose proof (@is_RInt_unique R_CompleteNormedModule _ _ _ _ I) as X. pose proof (@is_RInt_unique R_CompleteNormedModule _ _ _ _ J) as Y. rewrite X in Y. rewrite Y. lra.
Qed.
Lemma exl_first_law : law (ae_sample (uncor_law (mkUC iso (level_law (mkLevel 2 (1/2))))) 3) (fun v => fst v <= 0) (1/2).
Proof.
  cbn [ae_sample uncor_law]. eapply law_val; [|eapply law_ext]; [instantiate (1 := (0 + 1)/2 * 1); lra| |apply (uc_law _ 3 (fun v => v <= 0) (fun _ => True))].
  - intros v ds r _. tauto.
  - apply rp_adist. apply Forall_cons; [apply rp_isotropic|apply Forall_nil].
  - cbn. unfold lv_sample. rp.
  - cbn [uc_angle]. apply iso_law. lra.
  - cbn. apply (law_uses _ 0 (fun _ => 1/2 * (3 - 2))); [split|apply prob_always; trivial].
    + intros l r [L _] _. destruct l; [|discriminate]. reflexivity.
    + intros l L. exfalso. lia.
Qed.
Lemma exl_second_law : law (ae_sample (nbody_law (mkNB 3 4 2 (-1))) 3) (fun v => fst v <= 0) (1/2).
Proof.
  cbn [ae_sample nbody_law]. eapply law_val; [|eapply law_ext]; [instantiate (1 := (0 + 1)/2 * 1); lra| |apply (nb_cosine _ 3 (fun _ => True)); [lra|apply nb_energy_any]]. intros v ds r _. cbn. tauto.
Qed.
Lemma exl_laws_both y : exists t, reaction_laws (exl y 10) 0 (-1) [(uncor_law (mkUC iso (level_law (mkLevel 2 (1/2)))), t); (nbody_law (mkNB 3 4 2 (-1)), t)] /\ tabulated [] [] [1; 2] [1/2; 1/2] = Ok t.
Proof.
  destruct half_tab as [t Et]. exists t. split; [|exact Et].
  exists 0%Z, (Some iso), 1%Z. split; [hold 9%nat 10%nat|]. split; [lia|]. split; [apply ad_isotropic|]. split; [unfold u32; lia|]. split; [hold 10%nat 11%nat|].
  apply (ls_more _ _ _ 1 10 3 19 [] [] [1; 2] [1/2; 1/2] [2; 1/2]); try (unfold u32; cbn; lia); try exact reg0; try reflexivity; try exact Et.
  - hold 11%nat 20%nat.
  - hold 29%nat 31%nat.
  - apply exl_first.
  - apply (ls_last _ _ _ 10 66 21 [] [] [1; 2] [1/2; 1/2] [3; 4]); try (unfold u32; cbn; lia); try exact reg0; try reflexivity; try exact Et; [hold 20%nat 29%nat|hold 31%nat 33%nat|].
    apply (ll_nbody _ _ _ 3%Z 4 (mkNB 3 4 2 (-1))); [unfold u32; lia|]. unfold make_nbody. cbn. rdec. reflexivity.
Qed.
