(** * C102: a neutron file laid out as the format says is loaded, and the object holds what the file describes *)
From Coq Require Import Reals Lra Lia List ZifyBool ZifyNat.
From Verif Require Import Base NumR L_SearchR M_Interp M_Tab1D M_Func M_Grid M_Packet M_PC M_OutE M_Spectra M_Kin M_Ace M_Neutron M_Laws S_Grid S_Neutron S_Laws S_Urr S_File S_Sound S_Use L_NeutronEx L_LawsEx L_File L_FileEx L_Use L_UseEx.
Import ListNotations.
Local Open Scope R_scope.

(** whatever the file describes (grid, columns, reactions with their laws, multiplicities, delayed families, probability tables), the loader accepts it and the object carries all of it; any number of hash bins *)
Theorem C102_file_loads : forall a F NB, describes a F -> exists n, neutron_of_ace NB a = Ok n /\ carries a F n.
Proof. intros a F NB H. exact (file_carried a F NB H). Qed.
Print Assumptions C102_file_loads.
(** two descriptions of the same file agree: the object is determined by the file, so both are carried by it *)
Theorem C102_one_object : forall a F F' NB n, describes a F -> describes a F' -> neutron_of_ace NB a = Ok n -> carries a F n /\ carries a F' n.
Proof.
  intros a F F' NB n H H' Hn. destruct (file_carried a F NB H) as (m & E & C). destruct (file_carried a F' NB H') as (m' & E' & C'). rewrite Hn in E, E'. injection E as <-. injection E' as <-. split; assumption.
Qed.
Print Assumptions C102_one_object.
(** the hypotheses are met: a fissile file with fission, a discrete level and capture *)
Example C102_case : exists t, describes fx (fxd t).
Proof. exact fx_describes. Qed.
Print Assumptions C102_case.
Example C102_case_object : exists n r, neutron_of_ace 100 fx = Ok n /\ neutron_reaction n 51 = Ok r /\ rx_threshold r = 2 /\ rx_q r = -1 /\ xs_at (n_photon n) 2 = Ok 2 /\ neutron_has n 19 = Ok false /\ f_nus (n_fission n) = mkNus (FPoly [5/2]) (FPoly [5/2]) (FConst 0).
Proof.
  destruct fx_describes as (t & H). destruct (file_carried fx (fxd t) 100 H) as (n & E & C). exists n.
  destruct (ca_reactions _ _ _ C (nth 1 (fd_reactions (fxd t)) (mkRd 0 0 0 (FConst 0) [] 0 []))) as (_ & r & Er & A).
  - right. left. reflexivity.
  - intros (X & _) || intros X. reflexivity.
  - exists r. split; [exact E|]. split; [exact Er|]. split; [exact (rs_threshold _ _ _ _ A)|]. split; [exact (rs_q _ _ _ _ A)|].
    split; [apply (ca_columns _ _ _ C 2); cbn; lia|]. split; [|exact (ca_nu _ _ _ C)].
    apply (ca_no_others _ _ _ C); [lia|]. intros (X & _). cbn in X. intuition discriminate.
Qed.
Print Assumptions C102_case_object.

(** ** C103: a nuclide loaded from a well-formed file answers every query *)
(** every array a machine can hold has fewer than 2^63 elements ([fits]); [bins_ok]: the number of hash bins is a positive 32-bit number.
    Below the first grid energy the total cross section can be negative (C36_below_grid_refuted); laws 1 and 5 are read out of range (C24, C72) and not [sound_law] *)
Theorem C103_loaded_nuclide_usable_partial : forall a F NB, fits a -> bins_ok NB -> describes a F -> well_formed F -> exists n, neutron_of_ace NB a = Ok n /\ answers_all a F n.
Proof. intros a F NB FI B D W. destruct (file_carried a F NB D) as (n & E & C). exists n. split; [exact E|]. exact (file_answers a F NB n D W B FI E C). Qed.
Print Assumptions C103_loaded_nuclide_usable_partial.
Example C103_case : exists t, fits fx /\ bins_ok 100 /\ describes fx (fxd t) /\ well_formed (fxd t).
Proof. destruct fx_well_formed as (t & D & W). exists t. split; [unfold fits; cbn; lia|]. split; [split; lia|]. split; assumption. Qed.
Print Assumptions C103_case.
