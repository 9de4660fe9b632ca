(** * Model of include/PapillonNDL/interpolation.hpp *)
From Verif Require Import Base.
Local Open Scope num_scope.

(** interpolation.hpp 44-50: enum class Interpolation *)
Inductive interpolation := Histogram | LinLin | LinLog | LogLin | LogLog.

Section Interp.
  Context {T : Type} {N : Num T}.

  (** 97-101 *)
  Definition histogram_interpolate (x x1 y1 x2 y2 : T) : T := y1.
  (** 103-106 *)
  Definition histogram_invert (y x1 y1 x2 y2 : T) : T := x1.
  (** 108-111 *)
  Definition histogram_integrate (x_low x_hi x1 y1 x2 y2 : T) : T := y1 *~ (x_hi -~ x_low).

  (** 137-140 *)
  Definition linlin_interpolate (x x1 y1 x2 y2 : T) : T :=
    (x -~ x1) /~ (x2 -~ x1) *~ (y2 -~ y1) +~ y1.
  (** 142-145 *)
  Definition linlin_invert (y x1 y1 x2 y2 : T) : T :=
    (y -~ y1) /~ (y2 -~ y1) *~ (x2 -~ x1) +~ x1.
  (** 147-153 *)
  Definition linlin_integrate (x_low x_hi x1 y1 x2 y2 : T) : T :=
    let numerator := (x_hi -~ x_low) *~ (y1 -~ y2) *~ (x_hi +~ x_low -~ #2 *~ x1) in
    let denominator := #2 *~ (x1 -~ x2) in
    (numerator /~ denominator) +~ (x_hi -~ x_low) *~ y1.

  (** 175-178 *)
  Definition linlog_interpolate (x x1 y1 x2 y2 : T) : T :=
    y1 +~ (y2 -~ y1) *~ nlog (x /~ x1) /~ nlog (x2 /~ x1).
  (** 180-183 *)
  Definition linlog_invert (y x1 y1 x2 y2 : T) : T :=
    if y2 !=~ y1 then x1 *~ npow (x2 /~ x1) ((y -~ y1) /~ (y2 -~ y1)) else x1.
  (** 185-193 *)
  Definition linlog_integrate (x_low x_hi x1 y1 x2 y2 : T) : T :=
    let numerator_hi := x_hi *~ ((y2 -~ y1) *~ nlog (x_hi /~ x1) +~ y1 *~ nlog (x2 /~ x1) +~ y1 -~ y2) in
    let numerator_low := x_low *~ ((y2 -~ y1) *~ nlog (x_low /~ x1) +~ y1 *~ nlog (x2 /~ x1) +~ y1 -~ y2) in
    let denominator := nlog (x2 /~ x1) in
    (numerator_hi /~ denominator) -~ (numerator_low /~ denominator).

  (** 215-218 *)
  Definition loglin_interpolate (x x1 y1 x2 y2 : T) : T :=
    y1 *~ npow (y2 /~ y1) ((x -~ x1) /~ (x2 -~ x1)).
  (** 220-224 *)
  Definition loglin_invert (y x1 y1 x2 y2 : T) : T :=
    if y1 !=~ y2 then x1 +~ (x2 -~ x1) *~ nlog (y /~ y1) /~ nlog (y2 /~ y1) else x1.
  (** 226-235 *)
  Definition loglin_integrate (x_low x_hi x1 y1 x2 y2 : T) : T :=
    let base := y2 /~ y1 in
    let denominator := nlog base in
    let coefficient := y1 *~ (x2 -~ x1) in
    let exponent_hi := (x1 -~ x_hi) /~ (x1 -~ x2) in
    let exponent_low := (x1 -~ x_low) /~ (x1 -~ x2) in
    (coefficient /~ denominator) *~ (npow base exponent_hi -~ npow base exponent_low).

  (** 257-261 *)
  Definition loglog_interpolate (x x1 y1 x2 y2 : T) : T :=
    let exponent := nlog (y2 /~ y1) /~ nlog (x2 /~ x1) in
    y1 *~ npow (x /~ x1) exponent.
  (** 263-267 *)
  Definition loglog_invert (y x1 y1 x2 y2 : T) : T :=
    let exponent := nlog (y /~ y1) /~ nlog (y2 /~ y1) in
    x1 *~ npow (x2 /~ x1) exponent.
  (** 269-282 *)
  Definition loglog_integrate (x_low x_hi x1 y1 x2 y2 : T) : T :=
    let y2_y1 := y2 /~ y1 in
    let x2_x1 := x2 /~ x1 in
    let log_y2_y1 := nlog y2_y1 in
    let log_x2_x1 := nlog x2_x1 in
    let exponent := log_y2_y1 /~ log_x2_x1 in
    let denominator := exponent +~ #1 in
    if nabs denominator <=~ nlit 1 1000000000000 then y1 *~ x1 *~ nlog (x_hi /~ x_low)
    else (y1 /~ denominator) *~
         (x_hi *~ npow (x_hi /~ x1) exponent -~ x_low *~ npow (x_low /~ x1) exponent).

  (** 77-92: has_sign_change; dereferences *first, so the range must not be empty *)
  Definition has_sign_change (l : list T) : res bool :=
    match l with
    | [] => UB
    | a :: _ => Ok (existsb (fun b => negb (Bool.eqb (nsignbit b) (nsignbit a))) l)
    end.

  (** 342-348: Interpolator::interpolate (dispatch on the variant) *)
  Definition interpolate (i : interpolation) : T -> T -> T -> T -> T -> T :=
    match i with
    | Histogram => histogram_interpolate
    | LinLin => linlin_interpolate
    | LinLog => linlog_interpolate
    | LogLin => loglin_interpolate
    | LogLog => loglog_interpolate
    end.
  (** 359-365 *)
  Definition invert (i : interpolation) : T -> T -> T -> T -> T -> T :=
    match i with
    | Histogram => histogram_invert
    | LinLin => linlin_invert
    | LinLog => linlog_invert
    | LogLin => loglin_invert
    | LogLog => loglog_invert
    end.
  (** 377-383 *)
  Definition integrate (i : interpolation) : T -> T -> T -> T -> T -> T -> T :=
    match i with
    | Histogram => histogram_integrate
    | LinLin => linlin_integrate
    | LinLog => linlog_integrate
    | LogLin => loglin_integrate
    | LogLog => loglog_integrate
    end.

  (** 390-396 with the bodies at 113-125, 155-163, 195-203, 237-240, 284-292 *)
  Definition verify_x_grid (i : interpolation) (x : list T) : res unit :=
    match i with
    | Histogram => guard (negb (has_adjacent_equal x))
    | LinLin => guard (is_sorted x)
    | LinLog => let! s := has_sign_change x in guard (negb s)
    | LogLin => Ok tt
    | LogLog => let! s := has_sign_change x in guard (negb s)
    end.
  (** 403-409 with the bodies at 127-130, 165-168, 205-208, 242-250, 294-302 *)
  Definition verify_y_grid (i : interpolation) (y : list T) : res unit :=
    match i with
    | Histogram | LinLin | LinLog => Ok tt
    | LogLin | LogLog => let! s := has_sign_change y in guard (negb s)
    end.
End Interp.
