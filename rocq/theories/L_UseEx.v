(** * The file of L_FileEx is well formed (C103) *)
From Coq Require Import Reals Lra Lia List ZifyBool ZifyNat.
From Verif Require Import Base NumR L_SearchR M_Interp M_Tab1D M_Func M_Grid M_PC M_OutE M_Spectra M_Kin M_Ace M_Neutron M_Laws S_Grid S_Neutron S_Laws S_File S_Sound S_Use L_Sound2 L_LawsEx L_NeutronEx L_FileEx.
Import ListNotations.
Local Open Scope R_scope.
Lemma fx_well_formed : exists t, describes fx (fxd t) /\ well_formed (fxd t).
Proof.
  destruct fx_describes_table as (t & Ht & D). exists t. split; [exact D|].
  assert (L : forall c1 c2, Forall (fun p => sound_law (fun _ : R => True) (fst p) /\ sound_tab (fun _ : R => True) (snd p)) [(fx_level c1 c2, t)]).
  { intros. constructor; [|constructor]. split; [apply sl_uncorrelated; [exact iso_sound|apply se_level]|exact (half_sound t Ht)]. }
  constructor; cbn [fxd fxds fd_grid fd_angle fd_reactions fd_nu_total fd_nu_prompt fd_nu_delayed fd_families].
  - intros i j Hi0 Hij Hj. change (sizeZ [1; 2; 3]) with 3%Z in Hj.
    assert (i = 0 \/ i = 1)%Z as [-> | ->] by lia; assert (j = 1 \/ j = 2)%Z as [-> | ->] by lia; try (exfalso; lia); change (getR [1; 2; 3] 0) with 1; change (getR [1; 2; 3] 1) with 2; change (getR [1; 2; 3] 2) with 3; lra.
  - exact iso_sound.
  - repeat constructor.
  - repeat (apply Forall_cons; [cbn [rd_laws]; solve [apply L|constructor]|]). constructor.
  - repeat split; constructor.
  - constructor.
Qed.
