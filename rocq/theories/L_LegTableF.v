(** * AngleTable(Legendre) in binary64: an expansion whose odd part is lost *)
From Coq Require Import Floats List ZArith.
From Verif Require Import Base NumF M_Interp M_Tab1D M_PC M_Legendre M_LegTable.
Import ListNotations.

(** mu -> 1/2 + 7/2 * 1/16 * P_3(mu) *)
Definition odd_moments : list float := [0; 0; 0.0625]%float.
Definition odd_coefs : list float := [0.5; 0; 0; 0.21875]%float.

Lemma odd_linearize lm adj fuel : adj (-1)%float 1%float = false ->
  @linearize_loop float (NumF lm) adj (2 + fuel) (@leg_pdf float (NumF lm) odd_coefs) (@nlit float (NumF lm) 1 1000) [-1; 1]%float [0.28125; 0.71875]%float 0
  = Ok ([-1; 1]%float, [0.28125; 0.71875]%float).
Proof.
  intros Ha. change (2 + fuel)%nat with (S (S fuel)).
  assert (S1 : forall n, @linearize_loop float (NumF lm) adj (S n) (@leg_pdf float (NumF lm) odd_coefs) (@nlit float (NumF lm) 1 1000) [-1; 1]%float [0.28125; 0.71875]%float 0 =
    @linearize_loop float (NumF lm) adj n (@leg_pdf float (NumF lm) odd_coefs) (@nlit float (NumF lm) 1 1000) [-1; 1]%float [0.28125; 0.71875]%float 1).
  { intros n. transitivity (if adj (-1)%float 1%float then
      @linearize_loop float (NumF lm) adj n (@leg_pdf float (NumF lm) odd_coefs) (@nlit float (NumF lm) 1 1000) [-1; 1]%float [0.28125; 0.71875]%float 1
      else @linearize_loop float (NumF lm) adj n (@leg_pdf float (NumF lm) odd_coefs) (@nlit float (NumF lm) 1 1000) [-1; 1]%float [0.28125; 0.71875]%float 1).
    - vm_compute. reflexivity.
    - rewrite Ha. reflexivity. }
  rewrite S1. reflexivity.
Qed.

Lemma odd_lost lm adj fuel : adj (-1)%float 1%float = false -> exists d t, @make_leg float (NumF lm) odd_moments = Ok d /\
  @angle_table_of_legendre float (NumF lm) adj (2 + fuel) d = Ok t /\
  pc_values t = [-1; 1]%float /\ @pc_pdf float (NumF lm) t 0.5%float = Ok 0.609375%float /\ @leg_pdf float (NumF lm) (lg_a d) 0.5%float = 0.404296875%float.
Proof.
  intros Ha. remember (@make_leg float (NumF lm) odd_moments) as m eqn:Em. vm_compute in Em.
  exists (mkLeg odd_coefs (match m with Ok d => lg_max d | _ => 0%float end)).
  exists (mkPC [-1; 1]%float [0.28125; 0.71875]%float [0; 1]%float LinLin).
  subst m. split; [reflexivity|]. split; [|repeat split; vm_compute; reflexivity].
  unfold angle_table_of_legendre, linearize_interval, linearize. cbn [lg_a].
  change (@leg_pdf float (NumF lm) odd_coefs (nopp (nofZ 1))) with (0.28125)%float. 
  change (@leg_pdf float (NumF lm) odd_coefs (nofZ 1)) with (0.71875)%float.
  change (@nopp float (NumF lm) (nofZ 1)) with (-1)%float. change (@nofZ float (NumF lm) 1) with 1%float.
  change (nleb 1%float (-1)%float) with false. cbv iota. change (guard _) with (@Ok unit tt) at 1 2. cbn [bind].
  rewrite odd_linearize by exact Ha. vm_compute. reflexivity.
Qed.
