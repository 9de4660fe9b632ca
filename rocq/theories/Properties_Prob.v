(** * C87: sampled energies follow the density *)
From Coq Require Import Reals Lra Lia List. From Coquelicot Require Import Coquelicot.
From Verif Require Import Properties_Spectra. From Verif Require Import Base NumR M_Spectra L_Spectra L_Spectra2 S_Prob L_Prob L_ProbEv L_ProbMw L_ProbWatt. Import ListNotations.
Local Open Scope R_scope.

(** the probability a sampler has of returning a value of some kind is one number *)
Theorem C87_law_unique_partial A (s : rand R A) (B : A -> Prop) q q' : law s B q -> law s B q' -> q = q'.
Proof. exact (law_unique s B q q'). Qed.
Print Assumptions C87_law_unique_partial.

(** Evaporation: pdf is the density of the sampled energies *)
Theorem C87_evaporation_partial (temp : R -> res R) (U E t : R) (f : R -> R) :
  temp E = Ok t -> 0 < t -> 0 < E - U -> (forall x, ev_pdf temp U E x = Ok (f x)) -> has_density (ev_sample temp U E) 0 (E - U) f.
Proof. exact (ev_density temp U E t f). Qed.
Print Assumptions C87_evaporation_partial.

(** Watt: pdf is the density of the sampled energies *)
Theorem C87_watt_partial (d : watt R) (E a b : R) (f : R -> R) :
  w_a d E = Ok a -> w_b d E = Ok b -> 0 < a -> 0 < b -> 0 < E - w_U d -> (forall x, w_pdf d E x = Ok (f x)) -> has_density (w_sample d E) 0 (E - w_U d) f.
Proof. exact (w_density d E a b f). Qed.
Print Assumptions C87_watt_partial.

(** Maxwellian: the sampled energies follow the Maxwellian of the temperature, cut at E - U and divided by its integral *)
Theorem C87_maxwellian_partial (temp : R -> res R) (U E t N : R) :
  temp E = Ok t -> 0 < t -> 0 < E - U -> is_RInt (fun x => sqrt x * exp (- x / t)) 0 (E - U) N ->
  has_density (mw_sample temp U E) 0 (E - U) (fun x => sqrt x * exp (- x / t) / N).
Proof.
  intros Ht Pt D HN. assert (N = mw_true t (E - U)) as ->.
  { transitivity (RInt (fun x => sqrt x * exp (- x / t)) 0 (E - U)); [symmetry|]; apply (@is_RInt_unique R_CompleteNormedModule); [exact HN|apply mw_integral; assumption]. }
  exact (mw_density temp U E t Ht Pt D).
Qed.
Print Assumptions C87_maxwellian_partial.

(** ... which Maxwellian::pdf is not: it is even negative for E - U = t/4 *)
Theorem C87_maxwellian_pdf_refuted (temp : R -> res R) (U E t : R) (f : R -> R) :
  temp E = Ok t -> 0 < t -> E - U = t / 4 -> (forall x, mw_pdf temp U E x = Ok (f x)) -> ~ has_density (mw_sample temp U E) 0 (E - U) f.
Proof.
  intros Ht Pt D Hf [_ H]. destruct (H (E - U) ltac:(lra)) as (q & L & I). pose proof (law_bounds _ _ _ L) as B.
  assert (X : q < 0) by (apply (C62_maxwellian_refuted temp U E t f q Ht Pt D); [exact Hf|exact I]). lra.
Qed.
Print Assumptions C87_maxwellian_pdf_refuted.

(** a density is determined, up to sets every integral ignores, by the sampler: two densities of one sampler have the same integrals *)
Theorem C87_density_unique_partial (s : rand R R) (a b : R) (f g : R -> R) e : has_density s a b f -> has_density s a b g -> a <= e <= b -> exists q, is_RInt f a e q /\ is_RInt g a e q.
Proof.
  intros [_ F] [_ H] He. destruct (F e He) as (q & L & I). destruct (H e He) as (q' & L' & I'). rewrite <- (law_unique _ _ _ _ L L') in I'. exists q. split; assumption.
Qed.
Print Assumptions C87_density_unique_partial.

Lemma inside_dec x u : (0 <= x <= u) \/ (x < 0 \/ u < x). Proof. destruct (Rlt_dec x 0), (Rlt_dec u x); lra. Qed.
Example C87_evaporation_case : exists f, (forall x, ev_pdf (fun _ => Ok 2) 1 4 x = Ok (f x)) /\ f 1 <> 0 /\ has_density (ev_sample (fun _ => Ok 2) 1 4) 0 (4 - 1) f.
Proof.
  pose (f := fun x => if Rle_dec 0 x then if Rle_dec x (4 - 1) then x / ev_norm 2 (4 - 1) * exp (- x / 2) else 0 else 0).
  assert (H : forall x, ev_pdf (fun _ : R => Ok 2) 1 4 x = Ok (f x)).
  { intros x. destruct (inside_dec x (4 - 1)) as [I|I].
    - rewrite (ev_pdf_inside _ 1 4 2 x eq_refl I). unfold f. destruct (Rle_dec 0 x); [|lra]. destruct (Rle_dec x (4 - 1)); [reflexivity|lra].
    - rewrite (ev_pdf_outside _ 1 4 x I). unfold f. destruct (Rle_dec 0 x); [|reflexivity]. destruct (Rle_dec x (4 - 1)); [lra|reflexivity]. }
  exists f. split; [exact H|]. split; [|apply (C87_evaporation_partial (fun _ => Ok 2) 1 4 2 f eq_refl); [lra|lra|exact H]].
  unfold f. destruct (Rle_dec 0 1); [|lra]. destruct (Rle_dec 1 (4 - 1)); [|lra]. pose proof (ev_norm_pos 2 (4 - 1) ltac:(lra) ltac:(lra)). apply Rgt_not_eq. apply Rmult_lt_0_compat; [apply Rdiv_lt_0_compat; lra|apply exp_pos].
Qed.
Example C87_watt_case : exists f, (forall x, w_pdf (mkWatt (fun _ => Ok 1) (fun _ => Ok 3) 0) 2 x = Ok (f x)) /\ f 1 <> 0 /\ has_density (w_sample (mkWatt (fun _ => Ok 1) (fun _ => Ok 3) 0) 2) 0 (2 - 0) f.
Proof.
  set (d := mkWatt (fun _ => Ok 1) (fun _ => Ok 3) 0). pose (f := fun x => if Rle_dec 0 x then if Rle_dec x (2 - 0) then exp (- x / 1) / w_norm 1 3 (2 - 0) * sinh (sqrt (3 * x)) else 0 else 0).
  assert (H : forall x, w_pdf d 2 x = Ok (f x)).
  { intros x. destruct (inside_dec x (2 - 0)) as [I|I].
    - rewrite (w_pdf_inside d 2 1 3 x eq_refl eq_refl I). unfold f. destruct (Rle_dec 0 x); [|lra]. destruct (Rle_dec x (2 - 0)); [reflexivity|lra].
    - rewrite (w_pdf_outside d 2 x I). unfold f. destruct (Rle_dec 0 x); [|reflexivity]. destruct (Rle_dec x (2 - 0)); [lra|reflexivity]. }
  exists f. split; [exact H|]. split; [|apply (C87_watt_partial d 2 1 3 f eq_refl eq_refl); [lra|lra|unfold d; cbn [w_U]; lra|exact H]].
  unfold f. destruct (Rle_dec 0 1); [|lra]. destruct (Rle_dec 1 (2 - 0)); [|lra]. pose proof (w_norm_pos 1 3 (2 - 0) ltac:(lra) ltac:(lra) ltac:(lra)). apply Rgt_not_eq. apply Rmult_lt_0_compat; [apply Rdiv_lt_0_compat; [apply exp_pos|lra]|]. rewrite <- sinh_0. apply sinh_lt, sqrt_lt_R0. lra.
Qed.
Example C87_maxwellian_case : has_density (mw_sample (fun _ => Ok 1) 0 2) 0 (2 - 0) (fun x => sqrt x * exp (- x / 1) / mw_true 1 (2 - 0)).
Proof. apply (C87_maxwellian_partial (fun _ => Ok 1) 0 2 1 _ eq_refl); [lra|lra|]. apply mw_integral; lra. Qed.
