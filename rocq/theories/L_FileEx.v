(** * A fissile file with three reactions (fission in the laboratory frame, a discrete level in the centre of mass, capture), photon production and a constant multiplicity *)
From Coq Require Import Reals Lra Lia List ZifyBool ZifyNat.
From Verif Require Import Base NumR L_Search L_SearchR M_Interp M_Tab1D M_Func M_Grid M_Packet M_PC M_OutE M_Spectra M_Kin M_Ace M_Neutron M_Laws S_Neutron S_Laws S_Urr S_File L_Laws L_LawsEx L_NeutronEx.
Import ListNotations.
Local Open Scope R_scope.

Definition fx_xss (s : R) : list R :=
  [1; 2; 3] ++ [s; s; s] ++ [1; 1; 1] ++ [1; 1; 1] ++ [0; 0; 0] ++ [1; 0; 2] ++      (* energies, total, disappearance, elastic, heating; photon production *)
  [18; 51; 102] ++ [200; -1; 0] ++ [2; -1; 0] ++ [1; 6; 10] ++                      (* MT, Q, TYR, LSIG *)
  [1; 3; 1; 1; 1] ++ [2; 2; 1; 1] ++ [1; 3; 1; 1; 1] ++                             (* SIG *)
  [0; 0; 0; 0] ++ [1; 12; 0] ++                                                     (* LAND, LDLW *)
  [0; 3; 10] ++ [0; 2; 1; 2; 1/2; 1/2] ++ [0; 1/2] ++                               (* law 3 of MT 18 *)
  [0; 3; 21] ++ [0; 2; 1; 2; 1/2; 1/2] ++ [2; 1/2] ++                               (* law 3 of MT 51 *)
  [1; 1; 5/2].                                                                      (* multiplicity: the constant 5/2 *)
Definition fx_nxs : list Z := [76; 92235; 3; 3; 0; 0; 0; 0; 0; 0; 0; 0; 0; 0; 0; 0]%Z.
Definition fx_jxs : list Z := [1; 74; 19; 22; 25; 28; 31; 45; 46; 49; 52; 16; 0; 0; 0; 0; 0; 0; 0; 0; 0; 0; 0; 0; 0; 0; 0; 0; 0; 0; 0; 0]%Z.
(** with total cross section [s] at temperature [temp] *)
Definition fxs (s temp : R) : ace R := mkAce 92235%Z 233 temp true fx_nxs fx_jxs (fx_xss s).
Definition fx : ace R := fxs 4 300.
Definition fx_iso : adist R := mkADist [/ 100000] [isotropic].
Definition fx_level (C1 C2 : R) : aelaw R := uncor_law (mkUC fx_iso (level_law (mkLevel C1 C2))).
Definition fxds (s : R) (t : tab R) : fdesc := {|
  fd_grid := [1; 2; 3]; fd_total := [s; s; s]; fd_disappearance := [1; 1; 1]; fd_elastic := [1; 1; 1]; fd_heating := [0; 0; 0]; fd_photon := Some [1; 0; 2];
  fd_reactions := [mkRd 18 200 2 (FConst (Rabs 2)) [(fx_level 0 (1/2), t)] 1 [1; 1; 1]; mkRd 51 (-1) (-1) (FConst (Rabs (-1))) [(fx_level 2 (1/2), t)] 2 [1; 1]; mkRd 102 0 0 (FConst (Rabs 0)) [] 1 [1; 1; 1]];
  fd_angle := fx_iso; fd_nu_total := FPoly [5/2]; fd_nu_prompt := FPoly [5/2]; fd_nu_delayed := FConst 0; fd_families := []; fd_urr := None |}.
Definition fxd (t : tab R) : fdesc := fxds 4 t.

Lemma fx_tab : regions_ok [] [] /\ u32 (sizeZ [1; 2]) /\ length [1/2; 1/2] = length [1; 2].
Proof. repeat split; cbn; try lia; constructor. Qed.
Ltac pos := repeat (apply Forall_cons; [cbv beta; lra|]); apply Forall_nil.
Lemma fxs_describes s temp t : 0 <= s -> tabulated [] [] [1; 2] [1/2; 1/2] = Ok t -> describes (fxs s temp) (fxds s t).
Proof.
  intros Ps Ht. constructor.
  - split; [reflexivity|]. cbn; lia.
  - split; [|cbn; lra]. intros i j Hi0 Hij Hj. change (sizeZ (fd_grid (fxds s t))) with 3%Z in Hj. unfold fxds, fd_grid.
    assert (i = 0 \/ i = 1 \/ i = 2)%Z as [-> | [-> | ->]] by lia; assert (j = 0 \/ j = 1 \/ j = 2)%Z as [-> | [-> | ->]] by lia; try (exfalso; lia); change (getR [1; 2; 3] 0) with 1; change (getR [1; 2; 3] 1) with 2; change (getR [1; 2; 3] 2) with 3; lra.
  - unfold fxds, fd_total, fd_disappearance, fd_elastic, fd_heating, fd_grid. repeat constructor.
  - unfold fxds, fd_total, fd_disappearance, fd_elastic. repeat (apply Forall_cons; [pos|]). apply Forall_nil.
  - hold 0%nat 15%nat.
  - cbn match. split; [cbn; lia|]. split; [reflexivity|]. split; [pos|hold 15%nat 18%nat].
  - split; [reflexivity|]. split; [cbn; lia|]. split.
    { unfold fd_mts, fxds, fd_reactions. cbn [map rd_mt]. repeat constructor; cbn [In]; intuition discriminate. }
    intros k d Hk. destruct fx_tab as (T1 & T2 & T3).
    destruct k as [|[|[|k]]]; [injection Hk as <- ..|destruct k; discriminate Hk].
    + constructor; cbn [rd_mt rd_q rd_y rd_yield rd_laws rd_i1 rd_vals].
      * split; [unfold u32; lia|]. split; [hold 18%nat 19%nat|]. split; [hold 21%nat 22%nat|hold 24%nat 25%nat].
      * lia.
      * constructor. rewrite Rabs_right; lra.
      * intros _. exists 0%Z, (Some fx_iso), 1%Z. split; [hold 45%nat 46%nat|]. split; [lia|]. split; [constructor|]. split; [unfold u32; lia|]. split; [hold 48%nat 49%nat|].
        apply (ls_last (fxs s temp) (Some fx_iso) 200 1 3 10 [] [] [1; 2] [1/2; 1/2] [0; 1/2] t); try assumption; try (unfold u32; lia); [hold 51%nat 60%nat|hold 60%nat 62%nat|].
        apply (ll_energy (fxs s temp) (Some fx_iso) 200 3 [0; 1/2] (level_law (mkLevel 0 (1/2))) fx_iso); [reflexivity|]. constructor.
      * exists 1%Z. split; [unfold u32; lia|]. split; [hold 27%nat 28%nat|]. split; [lia|]. split; [unfold u32; cbn; lia|hold 30%nat 35%nat].
      * reflexivity.
      * discriminate.
      * pos.
    + constructor; cbn [rd_mt rd_q rd_y rd_yield rd_laws rd_i1 rd_vals].
      * split; [unfold u32; lia|]. split; [hold 19%nat 20%nat|]. split; [hold 22%nat 23%nat|hold 25%nat 26%nat].
      * lia.
      * constructor. rewrite Rabs_left; lra.
      * intros _. exists 0%Z, (Some fx_iso), 12%Z. split; [hold 46%nat 47%nat|]. split; [lia|]. split; [constructor|]. split; [unfold u32; lia|]. split; [hold 49%nat 50%nat|].
        apply (ls_last (fxs s temp) (Some fx_iso) (-1) 12 3 21 [] [] [1; 2] [1/2; 1/2] [2; 1/2] t); try assumption; try (unfold u32; lia); [hold 62%nat 71%nat|hold 71%nat 73%nat|].
        apply (ll_energy (fxs s temp) (Some fx_iso) (-1) 3 [2; 1/2] (level_law (mkLevel 2 (1/2))) fx_iso); [reflexivity|]. constructor.
      * exists 6%Z. split; [unfold u32; lia|]. split; [hold 28%nat 29%nat|]. split; [lia|]. split; [unfold u32; cbn; lia|hold 35%nat 39%nat].
      * reflexivity.
      * discriminate.
      * pos.
    + constructor; cbn [rd_mt rd_q rd_y rd_yield rd_laws rd_i1 rd_vals].
      * split; [unfold u32; lia|]. split; [hold 20%nat 21%nat|]. split; [hold 23%nat 24%nat|hold 26%nat 27%nat].
      * lia.
      * constructor. rewrite Rabs_R0; lra.
      * intros C. exfalso. apply C. reflexivity.
      * exists 10%Z. split; [unfold u32; lia|]. split; [hold 29%nat 30%nat|]. split; [lia|]. split; [unfold u32; cbn; lia|hold 39%nat 44%nat].
      * reflexivity.
      * discriminate.
      * pos.
  - exists 0%Z. split; [hold 44%nat 45%nat|]. split; [lia|]. constructor.
  - cbn match. split; [|split].
    + apply (nd_one (fxs s temp) (FPoly [5/2]) (poly_block [5/2])); [cbn; lia|cbn; lia| |]. { apply nb_poly. unfold u32; cbn; lia. } hold 73%nat 76%nat.
    + constructor. cbn; lia.
    + left. left. reflexivity.
  - reflexivity.
Qed.
Lemma fx_describes_table : exists t, tabulated [] [] [1; 2] [1/2; 1/2] = Ok t /\ describes fx (fxd t).
Proof. destruct half_tab as (t & Ht). exists t. split; [exact Ht|]. apply fxs_describes; [lra|exact Ht]. Qed.
Lemma fx_describes : exists t, describes fx (fxd t).
Proof. destruct fx_describes_table as (t & _ & H). exists t. exact H. Qed.
