(** * A concrete nuclide in binary64 for C101 *)
From Coq Require Import Reals Lra Lia ZArith Bool List.
From Coq Require Import Floats.
From Verif Require Import Base NumF S_PickF S_LinF M_Grid M_PC M_Interp M_Tab1D M_Func M_OutE M_Spectra M_Packet M_Neutron L_PickF L_LinF L_XsF L_PktF.
Import ListNotations.

Definition idm : Libm := {| lm_exp := fun x => x; lm_log := fun x => x; lm_pow := fun x _ => x; lm_sin := fun x => x; lm_cos := fun x => x; lm_sinh := fun x => x; lm_cosh := fun x => x; lm_erf := fun x => x; lm_pi := 0%float |}.
Definition eg_vals : list float := [1; 2; 4]%float.
Definition eg_grid : egrid float := mkGrid eg_vals [0%Z; 1%Z] 1%float 3%float.
Definition eg_xs (s : list float) : xsec float := mkXs eg_grid s 0 false.
Definition eg_zero : xsec float := mkXs eg_grid [0%float] 0 true.
Definition eg_n : neutron float :=
  mkNeutron 0%float false eg_grid (eg_xs [3; 5; 1]%float) (eg_xs [1; 1; 0]%float) (eg_xs [2; 3; 1]%float) eg_zero eg_zero eg_zero
    (mkADist [] []) (mkFis (mkNus (FConst 0%float) (FConst 0%float) (FConst 0%float)) None None None None None (mkAE (fun _ _ => NoDraw) (fun _ _ => Ok None) (fun _ _ _ => Ok None)) [] [])
    (mkUrr false false eg_zero eg_zero eg_zero eg_zero None None [] []) [] (repeat (-1)%Z 892) [].
Lemma eg_made : @make_grid _ (NumF idm) eg_vals 1 = Ok eg_grid. Proof. vm_compute. reflexivity. Qed.
Lemma mod_small (y : float) : fin y -> PrimFloat.ltb y 16 = true -> moderate y.
Proof.
  intros Fy H. split; [exact Fy|]. apply (ltb_BR y 16 Fy) in H; [|reflexivity]. assert (BR 16 = 16%R) by (apply (ofZ_BR 16); lia). apply Rle_trans with (2 ^ 4)%R; [lra|]. apply Rle_pow; [lra|lia].
Qed.
Ltac mods := repeat (apply Forall_cons; [apply mod_small; reflexivity|]); apply Forall_nil.
Lemma eg_ok : Forall fin eg_vals /\ Forall (built_on idm eg_grid) [n_total eg_n; n_elastic_xs eg_n; n_fission_xs eg_n; n_disappearance eg_n] /\ (forall r, @neutron_reaction _ eg_n 102 <> Ok r) /\
  exists p, @neutron_xs_i _ (NumF idm) eg_n 3%float 1 = Ok p /\ (total p, inelastic p) = (3, 0.5)%float.
Proof.
  split; [repeat constructor|]. split.
  { repeat (apply Forall_cons); [apply (bo_vector idm eg_grid [3; 5; 1]%float 0)|apply (bo_file idm eg_grid [2; 3; 1]%float 0)|apply (bo_single idm eg_grid 0%float)|apply (bo_vector idm eg_grid [1; 1; 0]%float 0)|apply Forall_nil];
    try (vm_compute; reflexivity); try mods; try (change (sizeZ (g_vals eg_grid)) with 3%Z; lia); try lia. apply mod_small; reflexivity. }
  split; [intros r; vm_compute; discriminate|]. eexists. split; vm_compute; reflexivity.
Qed.
