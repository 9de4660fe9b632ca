(** * Theorems of C107: scattering cosines of thermal laws in double precision *)
From Coq Require Import Reals Lra Lia ZArith Bool List ZifyBool ZifyNat.
From Coq Require Import Floats.
From Verif Require Import Base NumF S_PickF S_CosF M_Interp M_Tab1D M_Grid M_Ace M_PC M_OutE M_Thermal L_Search L_ThermalF L_CosF3 L_CosF4 Properties_PickF.
Import ListNotations.
Local Open Scope R_scope.

(** coherent elastic: every finite energy up to 2^1022 MeV, every draw *)
Theorem C107_coherent_elastic : forall lm a c E ds, @make_coh _ (NumF lm) a = Ok c -> (0 < sizeZ (c_edges c))%Z -> finite_file a -> fin E -> BR E <= 2 ^ 1022 -> (1 <= length ds)%nat ->
  exists mu rest, @coh_sample _ (NumF lm) c E ds = Ok ((mu, E), rest) /\ cosine mu.
Proof. exact coh_law. Qed.
Print Assumptions C107_coherent_elastic.
(** incoherent elastic: every double E (NaN and infinities included).  The code does not clamp: rounding alone never carries the smeared cosine past 1 *)
Theorem C107_incoherent_elastic : forall lm a d E ds, @make_inco _ (NumF lm) a = Ok d -> (2 <= sizeZ (ie_in d))%Z -> finite_file a -> first_energy_ok a (jxs a 3) -> Forall unit_double ds -> (2 <= length ds)%nat ->
  exists mu rest, @inco_sample _ (NumF lm) d E ds = Ok ((mu, E), rest) /\ cosine mu.
Proof. exact inco_law. Qed.
Print Assumptions C107_incoherent_elastic.
(** incoherent inelastic with discrete energies: every double E *)
Theorem C107_discrete : forall lm a d E ds, @make_dce _ (NumF lm) a = Ok d -> (0 < sizeZ (d_in d))%Z -> (0 < d_noe d)%Z -> (0 < d_nmu d)%Z -> finite_file a -> first_energy_ok a (jxs a 0) -> Forall unit_double ds -> (3 <= length ds)%nat ->
  exists mu Eo rest, @dce_sample _ (NumF lm) d E ds = Ok ((mu, Eo), rest) /\ cosine mu.
Proof. exact dce_law. Qed.
Print Assumptions C107_discrete.
(** incoherent inelastic with continuous energies: any table, even one no file could give *)
Theorem C107_continuous : forall lm d E ds mu Eo rest, @cedc_sample _ (NumF lm) d E ds = Ok ((mu, Eo), rest) -> PrimFloat.is_nan mu = true \/ cosine mu.
Proof. exact cedc_law. Qed.
Print Assumptions C107_continuous.

(** the hypotheses are met *)
Lemma finite_list (a : ace float) : Forall fin (a_xss a) -> finite_file a.
Proof. intros F i v H. rewrite Forall_forall in F. apply F. eapply atZ_In. exact H. Qed.
Example C107_files_met : finite_file coh_aceF /\ finite_file inco_aceF /\ finite_file dce_aceF /\ first_energy_ok inco_aceF (jxs inco_aceF 3) /\ first_energy_ok dce_aceF (jxs dce_aceF 0).
Proof.
  assert (P : forall e, e = 1%float -> 0 <= BR e) by (intros e ->; destruct L_PickF.one_BR as [-> _]; lra).
  split; [|split; [|split]]; try (apply finite_list; repeat constructor). split; intros e [= <-]; apply P; reflexivity.
Qed.
Example C107_incoherent_met : forall lm, exists d, @make_inco _ (NumF lm) inco_aceF = Ok d /\ sizeZ (ie_in d) = 2%Z /\ exists mu, @inco_sample _ (NumF lm) d 1.5%float [last_draw; 0; 0]%float = Ok ((mu, 1.5%float), [0%float]) /\ PrimFloat.eqb mu 0.25 = true.
Proof. intros lm. eexists. split; [vm_compute; reflexivity|]. split; [reflexivity|]. eexists. split; vm_compute; reflexivity. Qed.
Example C107_discrete_met : forall lm, exists d mu Eo, @make_dce _ (NumF lm) dce_aceF = Ok d /\ @dce_sample _ (NumF lm) d 1.5%float [last_draw; 0; 0]%float = Ok ((mu, Eo), [0%float]) /\ PrimFloat.eqb mu 0.5 = true.
Proof. intros lm. do 3 eexists. split; [vm_compute; reflexivity|]. split; vm_compute; reflexivity. Qed.
(** a table the constructor accepts and for which a draw of exactly 0 gives NaN (0/0 in the interpolation factor): the first case of C107_continuous occurs *)
Example C107_continuous_nan_met : forall lm, exists d mu Eo rest, @make_cedc _ (NumF lm) (cedc_ace 3 (en 0 1 0 ++ en 1 2 0 ++ en 2 1 1)) true = Ok d /\
  @cedc_sample _ (NumF lm) d 1%float [0; 0.5; 0.25; 0.5]%float = Ok ((mu, Eo), rest) /\ PrimFloat.is_nan mu = true.
Proof. intros lm. do 4 eexists. split; [vm_compute; reflexivity|]. split; vm_compute; reflexivity. Qed.
Example C107_continuous_met : forall lm, exists d mu Eo rest, @make_cedc _ (NumF lm) (cedc_ace 2 (en 0 1 0 ++ en 1 1 1)) true = Ok d /\
  @cedc_sample _ (NumF lm) d 1%float [0.25; 0.5; 0.25; 0.5]%float = Ok ((mu, Eo), rest) /\ PrimFloat.eqb mu (-0.5) = true.
Proof. intros lm. do 4 eexists. split; [vm_compute; reflexivity|]. split; vm_compute; reflexivity. Qed.
