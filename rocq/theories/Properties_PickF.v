(** * C97: discrete choices in double precision stay in range.  [unit_double]: a double in [0,1); [near_cell n x k]: x is in the k-th of n equal cells or at most
    2^-53 below it (S_PickF).  Every statement is in binary64, for every libm, every incident energy (NaN and infinities included) and all such draws. *)
From Coq Require Import Reals Lra Lia List ZArith.
From Flocq Require Import Core.
From Coq Require Import Floats.
From Verif Require Import Base NumF S_PickF M_Interp M_Tab1D M_Func M_Grid M_Ace M_PC M_OutE M_Thermal L_SafeT L_PickF L_ThermalF.
Import ListNotations.
Local Open Scope R_scope.

(** static_cast<uint32_t>(n * xi) is a cell number, whatever n and the draw *)
Theorem C97_pick : forall lm n x, (1 <= n < 2 ^ 32)%Z -> unit_double x ->
  exists k, @trunc_u32 float (NumF lm) (PrimFloat.mul (F_ofZ n) x) = Ok k /\ near_cell n (BR x) k.
Proof. exact pick_cell_near. Qed.
Print Assumptions C97_pick.
(** fl(n * xi) < n up to the largest n for which the claim makes sense *)
Theorem C97_product_below : forall n x, (1 <= n <= 2 ^ 53)%Z -> unit_double x -> 0 <= BR (PrimFloat.mul (F_ofZ n) x) < IZR n.
Proof. exact product_below. Qed.
Print Assumptions C97_product_below.

Theorem C97_angle_bins : forall lm bounds b xi, @make_bins _ (NumF lm) bounds = Ok b -> unit_double xi -> exists mu, @bins_sample _ (NumF lm) b xi = Ok mu.
Proof. exact bins_safeF. Qed.
Print Assumptions C97_angle_bins.
Theorem C97_coherent_elastic : forall lm a c E ds, @make_coh _ (NumF lm) a = Ok c -> (0 < sizeZ (c_edges c))%Z -> (1 <= length ds)%nat ->
  exists r rest, @coh_sample _ (NumF lm) c E ds = Ok (r, rest).
Proof. exact coh_safeF. Qed.
Print Assumptions C97_coherent_elastic.
Theorem C97_incoherent_elastic : forall lm a d E ds, @make_inco _ (NumF lm) a = Ok d -> (2 <= sizeZ (ie_in d))%Z -> Forall unit_double ds -> (2 <= length ds)%nat ->
  exists r rest, @inco_sample _ (NumF lm) d E ds = Ok (r, rest).
Proof. exact inco_safeF. Qed.
Print Assumptions C97_incoherent_elastic.
Theorem C97_discrete : forall lm a d E ds, @make_dce _ (NumF lm) a = Ok d -> (0 < sizeZ (d_in d))%Z -> (0 < d_noe d)%Z -> (0 < d_nmu d)%Z -> Forall unit_double ds -> (3 <= length ds)%nat ->
  exists r rest, @dce_sample _ (NumF lm) d E ds = Ok (r, rest).
Proof. exact dce_safeF. Qed.
Print Assumptions C97_discrete.
Theorem C97_continuous : forall lm a u d E ds, @make_cedc _ (NumF lm) a u = Ok d -> (2 <= sizeZ (ce_in d))%Z -> (forall t, In t (ce_tables d) -> (2 <= sizeZ (ct_energy t))%Z) ->
  Forall unit_double ds -> (4 <= length ds)%nat -> exists r rest, @cedc_sample _ (NumF lm) d E ds = Ok (r, rest).
Proof. exact cedc_safeF. Qed.
Print Assumptions C97_continuous.
(** and the entry used is the one of the cells of the two draws *)
Theorem C97_discrete_entry : forall lm a d E x y ds, @make_dce _ (NumF lm) a = Ok d -> (0 < sizeZ (d_in d))%Z -> (0 < d_noe d)%Z -> (0 < d_nmu d)%Z -> d_skewed d = false ->
  unit_double x -> unit_double y ->
  exists k j r, near_cell (d_nmu d) (BR x) k /\ near_cell (d_noe d) (BR y) j /\ @dce_sample _ (NumF lm) d E (x :: y :: ds) = Ok (r, ds) /\ @from_entry _ (NumF lm) d E j k r.
Proof. exact dce_entryF. Qed.
Print Assumptions C97_discrete_entry.

(** the hypotheses are met: files accepted in double precision, and the largest draw *)
Definition last_draw : float := 0x1.fffffffffffffp-1%float.
Example C97_draws_exist : Forall unit_double [0; 0.5; last_draw]%float.
Proof. repeat constructor; reflexivity. Qed.
Definition dce_aceF : ace float := mkAce 1%Z 1%float 300%float false (th_nxs 1 2 0 0 0) (th_jxs 6 0 0) [2; 1; 2; 0; 0; 1; -1; 1; 2; 0; 1; 3; -1; 0; 4; 0; 1]%float.
Example C97_discrete_met : forall lm, exists d, @make_dce _ (NumF lm) dce_aceF = Ok d /\ sizeZ (d_in d) = 2%Z /\ d_noe d = 2%Z /\ d_nmu d = 2%Z /\ d_skewed d = false /\
  @dce_sample _ (NumF lm) d 1.5%float [last_draw; 0; 0]%float = Ok ((0.5, 2)%float, [0%float]).
Proof. intros lm. eexists. split; [vm_compute; reflexivity|]. repeat split. Qed.
Example C97_continuous_met : forall lm, exists d, @make_cedc _ (NumF lm) (cedc_ace 2 (en 0 1 0 ++ en 1 1 1)) true = Ok d /\ sizeZ (ce_in d) = 2%Z /\ (forall t, In t (ce_tables d) -> sizeZ (ct_energy t) = 2%Z).
Proof. intros lm. eexists. split; [vm_compute; reflexivity|]. split; [reflexivity|]. intros t [<-|[<-|[]]]; reflexivity. Qed.
Definition inco_aceF : ace float := mkAce 1%Z 1%float 300%float false (th_nxs 0 0 3 1 0) (th_jxs 0 1 6) [2; 1; 2; 5; 5; -0.5; 0.5; -0.5; 0.75]%float.
Example C97_incoherent_met : forall lm, exists d, @make_inco _ (NumF lm) inco_aceF = Ok d /\ sizeZ (ie_in d) = 2%Z /\ ie_nmu d = 2%Z.
Proof. intros lm. eexists. split; [vm_compute; reflexivity|]. split; reflexivity. Qed.
Definition coh_aceF : ace float := mkAce 1%Z 1%float 300%float false (th_nxs 0 0 4 0 0) (th_jxs 0 1 0) [2; 1; 4; 3; 5]%float.
Example C97_coherent_met : forall lm, exists c, @make_coh _ (NumF lm) coh_aceF = Ok c /\ sizeZ (c_edges c) = 2%Z.
Proof. intros lm. eexists. split; [vm_compute; reflexivity|]. reflexivity. Qed.
(** rounding of the second stage of the skewed choice: with eight outgoing energies the largest draw of the middle group gives index 6, not one of 2..5: still in range *)
Example C97_skewed_spill : forall lm, @dce_index _ (NumF lm) (mkDCE [] [] 8%Z 1%Z true) [0.5; last_draw]%float = Ok (6%Z, []).
Proof. intros lm. vm_compute. reflexivity. Qed.
