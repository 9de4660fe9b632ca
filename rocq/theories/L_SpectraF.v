(** * N-body sampling in binary64: a zero draw gives a NaN energy *)
From Verif Require Import NumF Base M_Interp M_PC M_Spectra.
From Coq Require Import List. Import ListNotations.
Local Open Scope float_scope.

Definition ln_half_b64 : float := -0x1.62e42fefa39efp-1.
Lemma nb_zero_draw lm d E : lm_log lm 0 = neg_infinity -> lm_log lm 0.5 = ln_half_b64 -> lm_cos lm 0 = 1 -> lm_pi lm = 0x1.921fb54442d18p+1 ->
  @nb_Emax float (NumF lm) d E = 1 -> nb_n d = 3%Z ->
  @nb_sample float (NumF lm) d E [0; 0; 0.5; 0; 0.5; 0.5; 0.5] = Ok ((0, nan), []).
Proof.
  intros H1 H2 H3 H4 HE Hn. unfold nb_sample. rewrite HE, Hn. change (3 =? 3)%Z with true. unfold nb_y. cbn [Z.eqb Pos.eqb]. unfold nb_maxwell, rbind, draw, rret.
  change (@npi float (NumF lm)) with (lm_pi lm). change (@ncos float (NumF lm)) with (lm_cos lm). change (@nlog float (NumF lm)) with (lm_log lm). rewrite H4.
  repeat match goal with |- context [lm_cos lm ?a] => lazymatch a with 0 => fail | _ => change a with 0 end end. rewrite H1, H2, H3.
  cbv -[PrimFloat.add PrimFloat.mul PrimFloat.div PrimFloat.sub PrimFloat.opp]. reflexivity.
Qed.
Definition lm_nb : Libm := {| lm_exp := fun x => x; lm_log := fun x => if PrimFloat.eqb x 0 then neg_infinity else ln_half_b64;
  lm_pow := fun x _ => x; lm_sin := fun x => x; lm_cos := fun _ => 1; lm_sinh := fun x => x; lm_cosh := fun x => x;
  lm_erf := fun x => x; lm_pi := 0x1.921fb54442d18p+1 |}.
Lemma nb_hyps_met : lm_log lm_nb 0 = neg_infinity /\ lm_log lm_nb 0.5 = ln_half_b64 /\ lm_cos lm_nb 0 = 1 /\ lm_pi lm_nb = 0x1.921fb54442d18p+1 /\
  exists d, @make_nbody float (NumF lm_nb) 3 2 1 0 = Ok d /\ @nb_Emax float (NumF lm_nb) d 4 = 1 /\ nb_n d = 3%Z.
Proof. repeat split; try (vm_compute; reflexivity). eexists. split; [vm_compute; reflexivity|]. split; vm_compute; reflexivity. Qed.
