(** * binary64 counterexamples for frames and elastic scattering *)
From Verif Require Import Base NumF M_Kin.
Local Open Scope float_scope.

(** at mu = 0 with a light target the returned "cosine" is -2 *)
Lemma angle_mu0_float lm : @lab_to_cm_angle float (NumF lm) 1 0.5 0 0 = (Some (-2), None).
Proof. vm_compute. reflexivity. Qed.
(** a libm that is right wherever the two examples below evaluate it: pow(x,2) = x*x, cos 0 = 1, sin 0 = 0 *)
Definition lm_ex : Libm := {| lm_exp := fun x => x; lm_log := fun x => x; lm_pow := fun x _ => x * x;
  lm_sin := fun _ => 0; lm_cos := fun _ => 1; lm_sinh := fun x => x; lm_cosh := fun x => x; lm_erf := fun x => x;
  lm_pi := 0x1.921fb54442d18p+1 |}.
(** at mu = 1 the lab angular density is NaN for an isotropic CM density *)
Lemma angle_pdf_forward_nan :
  exists r, @cm_angle_pdf float (NumF lm_ex) (fun _ _ => Some 0.5) 2 0 1 1 = Some r /\ is_nan r = true.
Proof. eexists. split; [vm_compute; reflexivity|]. reflexivity. Qed.
(** backscatter off an equal mass at rest: zero outgoing speed, the lab cosine is NaN *)
Lemma elastic_backscatter_nan :
  let '(mu, E) := @elastic_out float (NumF lm_ex) 1 1 (mkVec 0 0 0) (-1) 0 in is_nan mu = true /\ E = 0.
Proof. vm_compute. split; reflexivity. Qed.
