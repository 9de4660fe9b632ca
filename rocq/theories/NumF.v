(** * IEEE-754 binary64 instance of [Num] (Coq primitive floats).
    Arithmetic, sqrt and comparisons are the hardware ones; libm functions are not available in Coq and
    are supplied by an arbitrary record [Libm]: every statement on this instance is for all of them. *)
From Coq Require Export Floats Uint63.
From Verif Require Export Base.

Record Libm := {
  lm_exp : float -> float; lm_log : float -> float; lm_pow : float -> float -> float;
  lm_sin : float -> float; lm_cos : float -> float; lm_sinh : float -> float; lm_cosh : float -> float;
  lm_erf : float -> float; lm_pi : float }.

(** exact for |z| < 2^53 *)
Definition F_ofZ (z : Z) : float :=
  match z with
  | Z0 => 0%float
  | Zpos _ => PrimFloat.of_uint63 (Uint63.of_Z z)
  | Zneg p => PrimFloat.opp (PrimFloat.of_uint63 (Uint63.of_Z (Zpos p)))
  end.

Definition F_floor (x : float) : option Z :=
  match Prim2SF x with
  | S754_zero _ => Some 0%Z
  | S754_finite s m e =>
      let v := if s then Zneg m else Zpos m in
      Some (match e with
            | Zneg q => Z.div v (Z.pow 2 (Zpos q))
            | _ => Z.mul v (Z.pow 2 e)
            end)
  | _ => None
  end.

Definition F_signbit (x : float) : bool :=
  match Prim2SF x with
  | S754_zero s | S754_infinity s | S754_finite s _ _ => s
  | S754_nan => false
  end.

Definition NumF (lm : Libm) : Num float := {|
  nadd := PrimFloat.add; nsub := PrimFloat.sub; nmul := PrimFloat.mul; ndiv := PrimFloat.div;
  nopp := PrimFloat.opp; nabs := PrimFloat.abs; nsqrt := PrimFloat.sqrt;
  nltb := PrimFloat.ltb; nleb := PrimFloat.leb; neqb := PrimFloat.eqb;
  nsignbit := F_signbit; nofZ := F_ofZ; nfloor := F_floor;
  nexp := lm_exp lm; nlog := lm_log lm; npow := lm_pow lm; nsin := lm_sin lm; ncos := lm_cos lm;
  nsinh := lm_sinh lm; ncosh := lm_cosh lm; nerf := lm_erf lm; npi := lm_pi lm |}.
