(** * The laws of Uncorrelated, MultipleDistribution, SummedFissionSpectrum, CMDistribution and of the reactions of a file *)
From Coq Require Import Reals Lra Lia List ZifyBool ZifyNat. From Coquelicot Require Import Coquelicot.
From Verif Require Import Base NumR M_Interp M_Tab1D M_Func M_Grid M_PC M_OutE M_Spectra M_Kin M_Ace M_Neutron M_Laws S_Spectra S_Neutron S_Laws S_Prob S_Mix L_Search L_Legendre L_Prob L_ProbEv L_ProbLaw L_ProbLoop L_Spectra5 S_Replay L_Replay L_ProbComp Properties_Laws.
Import ListNotations.
Local Open Scope R_scope.

Lemma uc_law (d : uncor R) E (A B : R -> Prop) p q : replayable (adist_sample (uc_angle d) E) -> replayable (el_sample (uc_energy d) E) ->
  law (adist_sample (uc_angle d) E) A p -> law (el_sample (uc_energy d) E) B q -> law (uc_sample d E) (fun v => A (fst v) /\ B (snd v)) (p * q).
Proof.
  intros R1 R2 L1 L2. change (uc_sample d E) with (both (adist_sample (uc_angle d) E) (el_sample (uc_energy d) E) (fun mu e => (mu, e))). apply (law_both _ _ _ A B); try assumption. intros v w. cbn. tauto.
Qed.
Lemma md_loop_pick E last x : forall ds ps pv s0 r, length ds = length ps -> evaluate_to ps E pv ->
  @md_loop R NumR ds ps E x s0 last r = pick (combine pv (map (fun d => ae_sample d E) ds)) last s0 x r.
Proof.
  induction ds as [|d ds IH]; intros ps pv s0 r L Ev.
  - destruct ps; [|discriminate]. inversion Ev; subst. reflexivity.
  - destruct ps as [|p ps]; [discriminate|]. inversion Ev as [|? v ? pv' Hv Ev']; subst. cbn [md_loop map combine pick]. unfold rbind at 1, rlift. rewrite Hv. cbn [bind].
    change (@nltb R NumR) with Rltb. change (@nadd R NumR) with Rplus. destruct (Rltb_spec x (s0 + v)) as [Q|Q], (Rlt_dec x (s0 + v)); try lra; [reflexivity|]. apply IH; [cbn in L; lia|exact Ev'].
Qed.
Lemma map_fst_combine {A B} : forall (l : list A) (m : list B), length l = length m -> map fst (combine l m) = l.
Proof. induction l as [|a l IH]; intros [|b m] L; try discriminate; cbn; [reflexivity|]. rewrite IH by (cbn in L; lia). reflexivity. Qed.
Lemma combine_Forall2 E (B : R * R -> Prop) : forall (ds : list (aelaw R)) (pv : list R) qs, length pv = length ds -> Forall2 (fun d q => law (ae_sample d E) B q) ds qs ->
  Forall2 (fun (d : R * rand R (R * R)) q => law (snd d) B q) (combine pv (map (fun d => ae_sample d E) ds)) qs.
Proof. induction ds as [|d ds IH]; intros [|p pv] qs L H; try discriminate; inversion H; subst; cbn; constructor; [assumption|]. apply IH; [cbn in L; lia|assumption]. Qed.
Lemma last_F2 {A C} (P : A -> C -> Prop) (d0 : A) (c0 : C) : forall l q, l <> [] -> Forall2 P l q -> P (List.last l d0) (List.last q c0).
Proof.
  induction l as [|x l IH]; intros q N H; [contradiction|]. inversion H as [|? y ? q' Hxy H']; subst. destruct l as [|x2 l]; [inversion H'; subst; exact Hxy|]. destruct q' as [|y2 q']; [inversion H'|]. exact (IH (y2 :: q') ltac:(discriminate) H').
Qed.
Lemma backR_last {A} (l : list A) (d : A) : l <> [] -> backR l = Ok (List.last l d).
Proof.
  intros N. unfold backR, atZ, sizeZ. destruct l as [|x l]; [contradiction|]. replace (0 <=? Z.of_nat (length (x :: l)) - 1)%Z with true by (cbn [length]; lia). replace (Z.to_nat (Z.of_nat (length (x :: l)) - 1)) with (length l) by (cbn [length]; lia).
  clear N. revert x. induction l as [|y l IH]; intros x; cbn; [reflexivity|]. specialize (IH y). cbn in IH. exact IH.
Qed.
Lemma md_law (m : multi R) E (pv qs : list R) (B : R * R -> Prop) : md_dists m <> [] -> length (md_dists m) = length (md_probs m) -> evaluate_to (md_probs m) E pv -> Forall (fun p => 0 <= p) pv -> total pv <= 1 ->
  Forall2 (fun d q => law (ae_sample d E) B q) (md_dists m) qs -> law (md_sample m E) B (weigh pv qs + (1 - total pv) * List.last qs 0).
Proof.
  intros N L Ev Pos Tot H. assert (LP : length pv = length (md_dists m)). { rewrite L. clear - Ev. induction Ev; cbn; congruence. }
  set (d0 := mkAE (fun _ _ => Throw) (fun _ _ => Throw) (fun _ _ _ => Throw) : aelaw R).
  pose proof (map_fst_combine pv (map (fun d => ae_sample d E) (md_dists m)) ltac:(rewrite map_length; exact LP)) as MF.
  pose proof (law_pick (md_sample m E) (combine pv (map (fun d => ae_sample d E) (md_dists m))) (ae_sample (List.last (md_dists m) d0) E) B qs (List.last qs 0)) as P. rewrite MF in P. apply P; clear P; try assumption.
  - intros v r X. discriminate.
  - intros x ds Hx O. unfold md_sample. unfold rbind at 1. cbn [draw]. change (@nofZ R NumR 0) with 0. rewrite (md_loop_pick E _ x _ _ pv 0 ds L Ev).
    assert (K : forall l s0 (t t' : rand R (R * R)), t ds = t' ds -> pick l t s0 x ds = pick l t' s0 x ds) by (induction l as [|[p s] l IH]; intros s0 t t' Q; cbn; [exact Q|]; destruct (Rlt_dec x (s0 + p)); [reflexivity|apply IH, Q]).
    apply K. unfold rbind, rlift. rewrite (backR_last _ d0 N). reflexivity.
  - apply combine_Forall2; assumption.
  - apply (last_F2 (fun d q => law (ae_sample d E) B q) d0 0); assumption.
Qed.
Lemma sf_law (d : sumfis R) E i x0 x1 x2 x3 q0 q1 q2 q3 (B : R * R -> Prop) : get_lower_index (x_grid (fr_xs (sf0 d))) E = Ok i ->
  contributes (sf0 d) E i x0 -> contributes (sf1 d) E i x1 -> contributes (sf2 d) E i x2 -> contributes (sf3 d) E i x3 -> 0 <= x0 -> 0 <= x1 -> 0 <= x2 -> 0 <= x3 -> 0 < x0 + x1 + x2 + x3 ->
  law (ae_sample (fr_dist (sf0 d)) E) B q0 -> law (ae_sample (fr_dist (sf1 d)) E) B q1 -> law (ae_sample (fr_dist (sf2 d)) E) B q2 -> law (ae_sample (fr_dist (sf3 d)) E) B q3 ->
  law (sf_sample d E) B ((x0 * q0 + x1 * q1 + x2 * q2 + x3 * q3) / (x0 + x1 + x2 + x3)).
Proof.
  intros Hi C0 C1 C2 C3 N0 N1 N2 N3 Pos L0 L1 L2 L3. set (t := x0 + x1 + x2 + x3) in *.
  pose proof (law_pick (sf_sample d E) [(x0 / t, ae_sample (fr_dist (sf0 d)) E); (x1 / t, ae_sample (fr_dist (sf1 d)) E); (x2 / t, ae_sample (fr_dist (sf2 d)) E)] (ae_sample (fr_dist (sf3 d)) E) B [q0; q1; q2] q3) as P.
  cbn [map fst total weigh] in P. assert (D : forall x, 0 <= x -> 0 <= x / t) by (intros x Hx; apply Rcomplements.Rdiv_le_0_compat; [exact Hx|unfold t; exact Pos]).
  assert (Sum : x0 / t + (x1 / t + (x2 / t + 0)) = 1 - x3 / t) by (unfold t; field; unfold t in Pos; lra).
  eapply law_val; [|apply P; clear P].
  - rewrite Sum. unfold t. field. unfold t in Pos; lra.
  - intros v r X. unfold sf_sample in X. unfold rbind at 1, rlift in X. rewrite (sf_probs_eq d E i x0 x1 x2 x3 Hi C0 C1 C2 C3) in X. discriminate.
  - repeat (apply Forall_cons; [apply D; assumption|]); apply Forall_nil.
  - rewrite Sum. pose proof (D x3 N3). lra.
  - intros x ds Hx O. unfold sf_sample. unfold rbind at 1, rlift. rewrite (sf_probs_eq d E i x0 x1 x2 x3 Hi C0 C1 C2 C3). fold t. cbn [bind]. unfold rbind at 1. cbn [draw pick]. change (@nltb R NumR) with Rltb. change (@nadd R NumR) with Rplus. rewrite Rplus_0_l.
    destruct (Rltb_spec x (x0 / t)), (Rlt_dec x (x0 / t)); try lra; [reflexivity|]. destruct (Rltb_spec x (x0 / t + x1 / t)), (Rlt_dec x (x0 / t + x1 / t)); try lra; [reflexivity|].
    destruct (Rltb_spec x (x0 / t + x1 / t + x2 / t)), (Rlt_dec x (x0 / t + x1 / t + x2 / t)); try lra; reflexivity.
  - repeat constructor; assumption.
  - exact L3.
Qed.
Lemma cm_law_of (s : R -> rand R (R * R)) awr E (B : R * R -> Prop) q : law (s E) (fun v => B (cm_to_lab E awr (fst v) (snd v))) q -> law (cm_sample s awr E) B q.
Proof.
  apply law_map with (h := fun v => cm_to_lab E awr (fst v) (snd v)). intros ds w r _. unfold cm_sample, rbind, rret. destruct (s E ds) as [[[mu e] r2]| | |]; (split; [intros X|intros (v & X & ->)]); try discriminate.
  - exists (mu, e). assert (r2 = r /\ cm_to_lab E awr mu e = w) as [-> <-] by (split; congruence). split; reflexivity.
  - assert ((mu, e) = v /\ r2 = r) as [<- ->] by (split; congruence). reflexivity.
Qed.
Lemma combined_law (l : list (aelaw R * tab R)) d E ps qs (B : R * R -> Prop) : combined l d -> Forall2 (fun x p => tab_eval (snd x) E = Ok p) l ps -> Forall (fun p => 0 <= p) ps -> total ps = 1 ->
  Forall2 (fun x q => law (ae_sample (fst x) E) B q) l qs -> law (ae_sample d E) B (weigh ps qs).
Proof.
  intros [(p & ->)|[L ->]] Ev Pos Tot H.
  - inversion Ev as [|? pv ? ? Hp Ev']; subst. inversion Ev'; subst. inversion H as [|? q ? ? Hq H']; subst. inversion H'; subst. cbn in *. replace (pv * q + 0) with q by (replace pv with 1 by lra; ring). exact Hq.
  - pose proof (md_law (mkMD (map fst l) (map (fun p => tab_eval (snd p)) l)) E ps qs B) as M. cbn [md_dists md_probs] in M. replace (weigh ps qs) with (weigh ps qs + (1 - total ps) * List.last qs 0) by (rewrite Tot; ring). apply M; clear M.
    + destruct l; [cbn in L; lia|discriminate].
    + rewrite !map_length. reflexivity.
    + clear - Ev. induction Ev; cbn; constructor; assumption.
    + exact Pos.
    + lra.
    + clear - H. induction H; cbn; constructor; assumption.
Qed.
Lemma file_law a indx g mt q y laws r E ps qs (B : R * R -> Prop) : reaction_entries a indx mt q y -> reaction_laws a indx q laws -> reaction_of_ace a indx g = Ok r -> rx_threshold r <= E ->
  Forall2 (fun x p => tab_eval (snd x) E = Ok p) laws ps -> Forall (fun p => 0 <= p) ps -> total ps = 1 ->
  (0 < y -> Forall2 (fun x v => law (ae_sample (fst x) E) B v) laws qs -> law (reaction_sample r E) B (weigh ps qs)) /\
  (y < 0 -> Forall2 (fun x v => law (ae_sample (fst x) E) (fun w => B (cm_to_lab E (a_awr a) (fst w) (snd w))) v) laws qs -> law (reaction_sample r E) B (weigh ps qs)).
Proof.
  intros HE HL HR T Ev Pos Tot. destruct (C74_distribution a indx g mt q y laws r HE HL HR) as (d & C & D1 & D2).
  split; intros Y H; (eapply law_same; [intros ds _; symmetry; apply C74_above_threshold; exact T|]).
  - rewrite (D1 Y). exact (combined_law laws d E ps qs B C Ev Pos Tot H).
  - rewrite (D2 Y). cbn [ae_sample cm_law]. apply cm_law_of. exact (combined_law laws d E ps qs _ C Ev Pos Tot H).
Qed.
Lemma uc_density (d : uncor R) E a b fa fe : replayable (adist_sample (uc_angle d) E) -> replayable (el_sample (uc_energy d) E) -> has_density (adist_sample (uc_angle d) E) (-1) 1 fa -> has_density (el_sample (uc_energy d) E) a b fe ->
  law (uc_sample d E) (fun v => -1 <= fst v <= 1 /\ a <= snd v <= b) 1 /\
  forall m x, -1 <= m <= 1 -> a <= x <= b -> exists p q, is_RInt fa (-1) m p /\ is_RInt fe a x q /\ law (uc_sample d E) (fun v => fst v <= m /\ snd v <= x) (p * q).
Proof.
  intros R1 R2 [A1 A2] [E1 E2]. split.
  - pose proof (uc_law d E _ _ _ _ R1 R2 A1 E1) as Q. rewrite Rmult_1_l in Q. exact Q.
  - intros m x Hm Hx. destruct (A2 m Hm) as (p & Lp & Ip), (E2 x Hx) as (q & Lq & Iq). exists p, q. split; [exact Ip|]. split; [exact Iq|]. exact (uc_law d E _ _ _ _ R1 R2 Lp Lq).
Qed.
