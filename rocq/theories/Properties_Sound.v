(** * C100: sampling a well-formed distribution neither throws nor reads outside its data.
    [sound_dist] (S_Sound): any law of the ACE format but equiprobable bins and general evaporation, or a mixture of them, in either frame, with two or more incident
    energies per table, CDFs that start at zero and valid breakpoints. [returns_or_waits]: a value, or all the given random numbers are used up. *)
From Coq Require Import Reals Lra Lia List ZArith Floats.
From Verif Require Import Base NumR NumF L_OrderF M_Interp M_Tab1D M_Grid M_PC M_OutE M_Spectra M_Kin M_Ace M_Neutron M_Laws S_Tab1D S_Neutron S_Laws L_Laws L_LawsEx L_KinF S_Sound L_Sound L_Sound2 L_SoundF.
Import ListNotations.
Local Open Scope R_scope.

(** full claim: for every distribution the library accepts *)
Theorem C100_sampling_partial : forall d E ds, sound_dist (fun _ : R => True) d -> Forall (fun x => 0 < x < 1) ds -> returns_or_waits (ae_sample d E ds).
Proof. exact sound_R. Qed.
Print Assumptions C100_sampling_partial.
(** the same in binary64, whatever the libm: any incident energy but NaN, any doubles strictly between 0 and 1 as random numbers *)
Theorem C100_sampling_binary64_partial : forall lm d E ds, @sound_dist _ (NumF lm) notNaN d -> notNaN E -> Forall (@unit_draw _ (NumF lm) notNaN) ds -> returns_or_waits (ae_sample d E ds).
Proof. exact sound_F. Qed.
Print Assumptions C100_sampling_binary64_partial.
Theorem C100_reaction_binary64_partial : forall lm (r : reaction float) E ds, @sound_dist _ (NumF lm) notNaN (rx_dist r) -> notNaN E -> Forall (@unit_draw _ (NumF lm) notNaN) ds -> returns_or_waits (@reaction_sample _ (NumF lm) r E ds).
Proof. intros lm r E ds D N F. unfold reaction_sample. destruct (nltb E (rx_threshold r)); [exact I|]. apply (sound_F lm); assumption. Qed.
Print Assumptions C100_reaction_binary64_partial.
(** a reaction of a file with these laws *)
Theorem C100_file_reaction_partial : forall a indx g mt q y laws r E ds, reaction_entries a indx mt q y -> y <> 0 -> reaction_laws a indx q laws -> reaction_of_ace a indx g = Ok r ->
  Forall (fun p => sound_law (fun _ : R => True) (fst p) /\ sound_tab (fun _ : R => True) (snd p)) laws -> Forall (fun x => 0 < x < 1) ds -> returns_or_waits (reaction_sample r E ds).
Proof. exact reaction_sound. Qed.
Print Assumptions C100_file_reaction_partial.
(** which laws of a file qualify: every Kalbach law with two or more incident energies; every law 61 with two or more and angular CDFs that start at zero; every N-body law *)
Theorem C100_kalbach_law_of_file : forall a locs ts energy d, laid_out a (DLW a) kt_layout locs ts -> make_kal energy ts = Ok d -> (2 <= sizeZ energy)%Z -> sound_law (fun _ : R => True) (kal_law d).
Proof. exact kalbach_sound. Qed.
Print Assumptions C100_kalbach_law_of_file.
Theorem C100_tabular_law_of_file : forall a locs ts energy d, laid_out a (DLW a) (eat_layout a (DLW a)) locs ts -> make_tea energy ts = Ok d -> (2 <= sizeZ energy)%Z ->
  Forall (fun t => Forall (sound_pc (fun _ : R => True)) (ea_angles t)) ts -> sound_law (fun _ : R => True) (tea_law d).
Proof. exact tabular_sound. Qed.
Print Assumptions C100_tabular_law_of_file.
Theorem C100_density_of_file : forall (t : pctable R) b, pc_layout t b -> atZ (pc_cdf t) 0 = Ok 0 -> sound_pc (fun _ : R => True) t.
Proof. exact pc_sound. Qed.
Print Assumptions C100_density_of_file.
(** elastic scattering with the free-gas target, in both arithmetics *)
Theorem C100_elastic_partial : forall e ad E ds, e_angle e = adist_sample ad -> e_brd e = svt_sample -> sound_adist (fun _ : R => True) ad -> Forall (fun x => 0 < x < 1) ds -> returns_or_waits (elastic_sample e E ds).
Proof. exact sound_elastic_R. Qed.
Print Assumptions C100_elastic_partial.
Theorem C100_elastic_binary64_partial : forall lm e ad E ds, e_angle e = @adist_sample _ (NumF lm) ad -> e_brd e = @svt_sample _ (NumF lm) -> @sound_adist _ (NumF lm) notNaN ad -> notNaN E -> Forall (@unit_draw _ (NumF lm) notNaN) ds ->
  returns_or_waits (@elastic_sample _ (NumF lm) e E ds).
Proof. exact sound_elastic_F. Qed.
Print Assumptions C100_elastic_binary64_partial.
(** in binary64 a Kalbach table that the constructor accepts (a repeated energy at which the CDF jumps) samples the energy NaN and then reads its parameters out of range *)
Theorem C100_kalbach_repeated_energy_refuted : forall lm, exists t d, @make_kt _ (NumF lm) (k_energy t) (k_pdf t) (k_cdf t) (k_R t) (k_A t) LinLin = Ok t /\ @make_kal _ (NumF lm) [1%float; 2%float] [t; t] = Ok d /\
  forall x y ds, @kal_sample _ (NumF lm) d 1%float (0.5%float :: 0.5%float :: x :: y :: ds) = UB.
Proof. intros lm. exists jumping, (mkKal [1%float; 2%float] [jumping; jumping]). destruct (jumping_made lm) as [A B]. split; [exact A|]. split; [exact B|]. exact (jumping_UB lm). Qed.
Print Assumptions C100_kalbach_repeated_energy_refuted.
(** concrete cases: a file with a mixture of two laws, in either frame; a mixture in binary64 *)
Example C100_file_case : forall y, y = 1 \/ y = -1 -> exists r laws, reaction_entries (exl y 10) 0 91 (-1) y /\ y <> 0 /\ reaction_laws (exl y 10) 0 (-1) laws /\ reaction_of_ace (exl y 10) 0 exl_grid = Ok r /\
  Forall (fun p => sound_law (fun _ : R => True) (fst p) /\ sound_tab (fun _ : R => True) (snd p)) laws /\ length laws = 2%nat.
Proof.
  intros y Hy. assert (Y : Rabs y < 100) by (destruct Hy as [-> | ->]; [rewrite Rabs_right|rewrite Rabs_left]; lra). destruct (exl_reaction y Y) as [r E]. destruct (exl_sound y) as (laws & L & N & F).
  exists r, laws. split; [apply exl_entries|]. split; [lra|]. split; [exact L|]. split; [exact E|]. split; assumption.
Qed.
Example C100_binary64_case : forall lm, exists d, @sound_dist _ (NumF lm) notNaN d /\ notNaN 1.5%float /\ Forall (@unit_draw _ (NumF lm) notNaN) [0.25%float; 0.75%float].
Proof.
  intros lm. destruct (sound_F_example lm) as [t H]. eexists. split; [exact H|]. split; [apply notNaN_is_nan; reflexivity|]. repeat constructor; try (apply notNaN_is_nan; reflexivity); vm_compute; reflexivity.
Qed.
Example C100_elastic_case : sound_adist (fun _ : R => True) iso. Proof. exact iso_sound. Qed.
