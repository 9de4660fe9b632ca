(** * Sampling well-formed distributions in binary64 *)
From Coq Require Import ZArith Lia List Floats.
From Verif Require Import Base NumF L_OrderF M_Interp M_Tab1D M_PC M_OutE M_Spectra M_Kin M_Laws S_Tab1D S_PickF L_PickF S_Sound L_Sound.
Import ListNotations.

Lemma n0 lm : notNaN (@nofZ _ (NumF lm) 0). Proof. apply notNaN_is_nan. reflexivity. Qed.
Lemma n1 lm : notNaN (@nofZ _ (NumF lm) 1). Proof. apply notNaN_is_nan. reflexivity. Qed.
Lemma unit_F lm x : @unit_draw _ (NumF lm) notNaN x -> unit_double x.
Proof.
  intros (Nx & X0 & X1). split; [|exact X1]. change (PrimFloat.leb 0 x) with (@nleb _ (NumF lm) (@nofZ _ (NumF lm) 0) x). rewrite (no_leb (NumF_order lm)) by (apply n0 || exact Nx).
  destruct (@nltb _ (NumF lm) x (@nofZ _ (NumF lm) 0)) eqn:E; [|reflexivity]. pose proof (no_trans (NumF_order lm) _ _ _ Nx (n0 lm) Nx E X0) as C. rewrite (no_irrefl (NumF_order lm)) in C by exact Nx. discriminate C.
Qed.
Lemma bins_F lm bounds b xi : @make_bins _ (NumF lm) bounds = Ok b -> @unit_draw _ (NumF lm) notNaN xi -> exists mu, @bins_sample _ (NumF lm) b xi = Ok mu.
Proof. intros M U. exact (bins_safeF lm bounds b xi M (unit_F lm xi U)). Qed.
Lemma sound_F lm d E ds : @sound_dist _ (NumF lm) notNaN d -> notNaN E -> Forall (@unit_draw _ (NumF lm) notNaN) ds -> returns_or_waits (ae_sample d E ds).
Proof. exact (@sound_sample _ (NumF lm) notNaN (NumF_order lm) (n0 lm) (n1 lm) (bins_F lm) d E ds). Qed.

Lemma sound_elastic_F lm e ad E ds : e_angle e = @adist_sample _ (NumF lm) ad -> e_brd e = @svt_sample _ (NumF lm) -> @sound_adist _ (NumF lm) notNaN ad -> notNaN E -> Forall (@unit_draw _ (NumF lm) notNaN) ds ->
  returns_or_waits (@elastic_sample _ (NumF lm) e E ds).
Proof. exact (@sound_elastic _ (NumF lm) notNaN (NumF_order lm) (n0 lm) (n1 lm) (bins_F lm) e ad E ds). Qed.
(** example: an isotropic distribution with two tabulated outgoing spectra, mixed with an angular table and three-body phase space, in the centre of mass *)
Definition box : pctable float := mkPC [0%float; 1%float] [1%float; 1%float] [0%float; 1%float] LinLin.
Definition cosines : pctable float := mkPC [(-1)%float; 1%float] [0.5%float; 0.5%float] [0%float; 1%float] Histogram.
Definition spectra : tabe float := mkTabE [1%float; 2%float] [box; box].
Lemma half_made lm : exists t, @make_tab _ (NumF lm) [2%Z] [LinLin] [1%float; 2%float] [0.5%float; 0.5%float] = Ok t.
Proof. eexists. vm_compute. reflexivity. Qed.
Lemma numbers (l : list float) : forallb (fun x => negb (PrimFloat.is_nan x)) l = true -> Forall notNaN l.
Proof. intros H. apply Forall_forall. intros x Hx. rewrite forallb_forall in H. apply notNaN_is_nan. specialize (H x Hx). destruct (PrimFloat.is_nan x); [discriminate H|reflexivity]. Qed.
Lemma box_sound lm : @sound_pc _ (NumF lm) notNaN box.
Proof.
  split; [exists (pc_values box), (pc_pdfs box), (pc_cdf box), LinLin; split; [vm_compute; reflexivity|apply numbers; reflexivity]|].
  exists 0%float. split; [reflexivity|]. split; [apply notNaN_is_nan; reflexivity|vm_compute; reflexivity].
Qed.
Lemma cosines_sound lm : @sound_pc _ (NumF lm) notNaN cosines.
Proof.
  split; [exists (pc_values cosines), (pc_pdfs cosines), (pc_cdf cosines), Histogram; split; [vm_compute; reflexivity|apply numbers; reflexivity]|].
  exists 0%float. split; [reflexivity|]. split; [apply notNaN_is_nan; reflexivity|vm_compute; reflexivity].
Qed.
Lemma sound_F_example lm : exists t, @sound_dist _ (NumF lm) notNaN (@cm_law _ (NumF lm) 2%float 0%float (@multi_law _ (NumF lm) (mkMD
    (map fst [(@uncor_law _ (NumF lm) (mkUC (mkADist [1%float] [@angle_table _ (NumF lm) cosines]) (@tabe_law _ (NumF lm) spectra)), t); (@nbody_law _ (NumF lm) (mkNB 3 4%float 2%float (-1)%float), t)])
    (map (fun p : aelaw float * tab float => @tab_eval _ (NumF lm) (snd p)) [(@uncor_law _ (NumF lm) (mkUC (mkADist [1%float] [@angle_table _ (NumF lm) cosines]) (@tabe_law _ (NumF lm) spectra)), t); (@nbody_law _ (NumF lm) (mkNB 3 4%float 2%float (-1)%float), t)])))).
Proof.
  destruct (half_made lm) as [t Et]. exists t. apply sd_cm, sd_mixture; [discriminate|].
  assert (ST : @sound_tab _ (NumF lm) notNaN t). { exists [2%Z], [LinLin], [1%float; 2%float], [0.5%float; 0.5%float]. split; [split; [discriminate|cbn; lia]|]. split; [reflexivity|]. split; [apply numbers; reflexivity|exact Et]. }
  constructor; cbn [fst snd]; [split; [|exact ST]|constructor; [cbn [fst snd]; split; [apply sl_nbody|exact ST]|constructor]].
  apply sl_uncorrelated.
  - exists [1%float], [@angle_table _ (NumF lm) cosines]. split; [reflexivity|]. split; [discriminate|]. split; [apply numbers; reflexivity|]. constructor; [apply sa_table, cosines_sound|constructor].
  - apply (se_tabular _ [1%float; 2%float] [box; box]); [vm_compute; reflexivity|discriminate|apply numbers; reflexivity|repeat constructor; apply box_sound].
Qed.

(** a Kalbach table with a repeated energy at which the CDF jumps: the sampled energy is NaN, and the search for its parameters reads out of range *)
Definition jumping : kt float := mkKT [0%float; 1%float; 1%float; 2%float] [0.25%float; 0.25%float; 0.5%float; 0.5%float] [0%float; 0.25%float; 0.75%float; 1%float] [0%float; 0%float; 0%float; 0%float] [1%float; 1%float; 1%float; 1%float] LinLin.
Lemma jumping_made lm : @make_kt _ (NumF lm) (k_energy jumping) (k_pdf jumping) (k_cdf jumping) (k_R jumping) (k_A jumping) LinLin = Ok jumping /\
  @make_kal _ (NumF lm) [1%float; 2%float] [jumping; jumping] = Ok (mkKal [1%float; 2%float] [jumping; jumping]).
Proof. split; vm_compute; reflexivity. Qed.
Lemma jumping_UB lm x y ds : @kal_sample _ (NumF lm) (mkKal [1%float; 2%float] [jumping; jumping]) 1%float (0.5%float :: 0.5%float :: x :: y :: ds) = UB.
Proof. vm_compute. reflexivity. Qed.
