(** * Theorems of C109: equiprobable energies in double precision *)
From Coq Require Import Reals Lra Lia ZArith Bool List ZifyBool ZifyNat.
From Flocq Require Import Core IEEE754.BinarySingleNaN.
From Flocq Require Import IEEE754.PrimFloat.
From Coq Require Import Floats.
From Verif Require Import Base NumF S_PickF S_BinsF M_Ace M_PC M_Spectra M_Laws L_PickF L_BinsF.
Import ListNotations.
Local Open Scope R_scope.

(** interpolating with a random number: for non-negative doubles lo <= hi the rounded (hi - lo) * xi + lo never leaves [lo,hi] *)
Theorem C109_interpolation : forall lo hi xi, fin lo -> fin hi -> 0 <= BR lo <= BR hi -> unit_double xi -> fin ((hi - lo) * xi + lo)%float /\ BR lo <= BR ((hi - lo) * xi + lo)%float <= BR hi.
Proof. exact between. Qed.
Print Assumptions C109_interpolation.
(** equiprobable energy bins built from sorted sets of finite, non-negative energies: every sampled energy lies between two neighbouring entries of one of the sets, for every incident energy (NaN and infinities included) *)
Theorem C109_equiprobable : forall lm energy sets d E ds v rest, @make_ebins _ (NumF lm) energy sets = Ok d -> (forall b, In b sets -> energies_ok b) -> Forall unit_double ds -> @eb_sample _ (NumF lm) d E ds = Ok (v, rest) ->
  exists b, In b (eb_sets d) /\ in_some_bin b v.
Proof. intros lm energy sets d E ds v rest M A. apply eb_bin. exact (make_ebins_ok lm _ _ _ M A). Qed.
Print Assumptions C109_equiprobable.
(** the same for the law read from a file without negative or non-finite numbers *)
Theorem C109_equiprobable_file : forall lm a i d E ds v rest, @ebins_of_ace _ (NumF lm) a i = Ok d -> (forall k x, xss a k = Ok x -> fin x /\ 0 <= BR x) -> Forall unit_double ds -> @eb_sample _ (NumF lm) d E ds = Ok (v, rest) ->
  exists b, In b (eb_sets d) /\ in_some_bin b v.
Proof. intros lm a i d E ds v rest M A. apply eb_bin. exact (ebins_file lm _ _ _ M A). Qed.
Print Assumptions C109_equiprobable_file.
(** general evaporation: the energy divided by the temperature comes from one bin *)
Theorem C109_general_evaporation : forall lm d E ds v rest, @is_sorted _ (NumF lm) (ge_bounds d) = true -> energies_ok (ge_bounds d) -> Forall unit_double ds -> @ge_sample _ (NumF lm) d E ds = Ok (v, rest) ->
  exists t x, ge_temp d E = Ok t /\ in_some_bin (ge_bounds d) x /\ v = (x * t)%float.
Proof. exact ge_bin. Qed.
Print Assumptions C109_general_evaporation.

(** the hypotheses are met, with the largest random number below 1 and bounds whose difference rounds up (to the upper bound itself) *)
Definition last : float := 0x1.fffffffffffffp-1%float.
Definition hi1 : float := 0x1.0000000000002p+0%float.
Lemma nn x : fin x -> PrimFloat.leb 0 x = true -> fin x /\ 0 <= BR x.
Proof. intros F L. split; [exact F|]. destruct zero_BR as [V0 F0]. rewrite leb_equiv, Bleb_correct in L by assumption. destruct (Rle_bool_spec (B2R (Prim2B 0)) (B2R (Prim2B x))) as [Q|]; [|discriminate L]. unfold BR in *. rewrite V0 in Q. exact Q. Qed.
Example C109_met : forall lm, exists d v, @make_ebins _ (NumF lm) [1; 2]%float [[0x1p-53; hi1; 3]%float; [0; 1; 2]%float] = Ok d /\ Forall (fun x => fin x /\ 0 <= BR x) [0x1p-53; hi1; 3]%float /\
  @eb_sample _ (NumF lm) d 1%float [0.25; last]%float = Ok (v, []) /\ PrimFloat.leb v hi1 = true /\ PrimFloat.ltb 1 v = true.
Proof. intros lm. do 2 eexists. split; [vm_compute; reflexivity|]. split; [repeat (constructor; [apply nn; reflexivity|]); constructor|]. split; [vm_compute; reflexivity|]. split; vm_compute; reflexivity. Qed.
