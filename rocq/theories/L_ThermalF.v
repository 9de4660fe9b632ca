(** * Thermal scattering in binary64: what accepted data may give *)
From Verif Require Import NumF Base M_Interp M_PC M_OutE M_Ace M_Thermal.
From Coq Require Import List Floats. Import ListNotations.
Local Open Scope float_scope.

Section Witnesses.
  Variable lm : Libm.
  Definition th_nxs (n2 n3 n4 n5 n6 : Z) : list Z := [0; 0; n2; n3; n4; n5; n6; 0; 0; 0; 0; 0; 0; 0; 0; 0]%Z.
  Definition th_jxs (j2 j3 j5 : Z) : list Z := [1; 0; j2; j3; 0; j5; 0; 0; 0; 0; 0; 0; 0; 0; 0; 0; 0; 0; 0; 0; 0; 0; 0; 0; 0; 0; 0; 0; 0; 0; 0; 0]%Z.
  (** incident energies 1, 2; both tables are [entries] entries at 7, with two cosines *)
  Definition cedc_ace (n : float) (entries : list float) : ace float := mkAce 1%Z 1%float 300%float false (th_nxs 3 0 0 0 2) (th_jxs 4 0 0) ([2; 1; 2; 7; 7; n; n]%float ++ entries).
  Definition en (E p c : float) : list float := [E; p; c; -0.5; 0.5]%float.
  (** the CDF is not the integral of the PDF *)
  Lemma bad_cdf_energy : exists d, @make_cedc _ (NumF lm) (cedc_ace 2 (en 0 0.125 0 ++ en 1 0.125 1)) true = Ok d /\
    @cedc_sample _ (NumF lm) d 1%float [0.5; 0.5; 0.25; 0.5]%float = Ok ((-0.5, 4)%float, []).
  Proof. eexists. split; [vm_compute; reflexivity|vm_compute; reflexivity]. Qed.
  (** a single outgoing energy *)
  Lemma one_energy_UB : exists d, @make_cedc _ (NumF lm) (cedc_ace 1 (en 1 1 0)) true = Ok d /\
    @cedc_sample _ (NumF lm) d 1%float [0.5; 0.5; 0.25; 0.5]%float = UB.
  Proof. eexists. split; [vm_compute; reflexivity|vm_compute; reflexivity]. Qed.
  (** zero density at the start of a correct table *)
  Lemma zero_pdf_nan : exists d mu E, @make_cedc _ (NumF lm) (cedc_ace 3 (en 0 0 0 ++ en 1 0 0 ++ en 2 2 1)) true = Ok d /\
    @cedc_sample _ (NumF lm) d 1%float [0; 0.5; 0.25; 0.5]%float = Ok ((mu, E), []) /\ is_nan mu = true /\ is_nan E = true.
  Proof. eexists _, _, _. split; [vm_compute; reflexivity|]. split; [vm_compute; reflexivity|split; vm_compute; reflexivity]. Qed.
  (** nearest incident energy *)
  Lemma nearest_negative : exists d, @make_cedc _ (NumF lm) (cedc_ace 2 (en 0 1 0 ++ en 1 1 1)) false = Ok d /\
    @cedc_sample _ (NumF lm) d 0.25%float [0.25; 0.25; 0.5]%float = Ok ((-0.5, -0.125)%float, []).
  Proof. eexists. split; [vm_compute; reflexivity|vm_compute; reflexivity]. Qed.
End Witnesses.
