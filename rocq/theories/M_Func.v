(** * Model of Function1D and its implementations: polynomial_1d.hpp/.cpp, constant.hpp, sum_1d.hpp,
    difference_1d.hpp (Tabulated1D is in M_Tab1D) *)
From Verif Require Import Base M_Interp M_Tab1D.
Local Open Scope num_scope.

Section Func.
  Context {T : Type} {N : Num T}.

  (** polynomial_1d.cpp 30-37: Horner over the reversed coefficients *)
  Definition poly_eval (coeffs : list T) (x : T) : T :=
    fold_left (fun value coeff => (value *~ x) +~ coeff) (rev coeffs) #0.

  (** polynomial_1d.cpp 43-50: (integral_hi, integral_low, exponent) through the loop *)
  Definition poly_integrate_step (x_low x_hi : T) (st : T * T * T) (c : T) : T * T * T :=
    let '(hi, low, e) := st in
    let coeff := c /~ e in
    ((hi *~ x_hi) +~ coeff, (low *~ x_low) +~ coeff, e -~ #1).
  (** polynomial_1d.cpp 39-56; order() + 1 = size() (polynomial_1d.hpp: order() = size() - 1, wrapping) *)
  Definition poly_integrate (coeffs : list T) (x_low x_hi : T) : T :=
    let '(hi, low, _) :=
      fold_left (poly_integrate_step x_low x_hi) (rev coeffs) (#0, #0, nofZ (sizeZ coeffs)) in
    (hi *~ x_hi) -~ (low *~ x_low).

  (** the class hierarchy under Function1D; a shared_ptr<Function1D> is an [option func] *)
  Inductive func :=
  | FConst (c : T)                 (* constant.hpp 38-53 *)
  | FPoly (coeffs : list T)        (* polynomial_1d.hpp *)
  | FTab (t : tab T)               (* tabulated_1d.hpp *)
  | FSum (f g : func)              (* sum_1d.hpp 41-81 *)
  | FDiff (f g : func).            (* difference_1d.hpp 41-83 *)

  (** sum_1d.hpp 47-58 *)
  Definition make_sum (f g : option func) : res func :=
    match f, g with None, _ => Throw | _, None => Throw | Some f, Some g => Ok (FSum f g) end.
  (** difference_1d.hpp 48-60 *)
  Definition make_diff (f g : option func) : res func :=
    match f, g with None, _ => Throw | _, None => Throw | Some f, Some g => Ok (FDiff f g) end.

  (** operator()(x): constant.hpp 46, polynomial_1d.cpp 30, tabulated_1d.hpp 66, sum_1d.hpp 60-62,
      difference_1d.hpp 62-64 *)
  Fixpoint feval (f : func) (x : T) : res T :=
    match f with
    | FConst c => Ok c
    | FPoly cs => Ok (poly_eval cs x)
    | FTab t => tab_eval t x
    | FSum f g => let! a := feval f x in let! b := feval g x in Ok (a +~ b)
    | FDiff f g => let! a := feval f x in let! b := feval g x in Ok (a -~ b)
    end.
  (** integrate: constant.hpp 47-49, polynomial_1d.cpp 39, tabulated_1d.hpp 79, sum_1d.hpp 64-66,
      difference_1d.hpp 66-68 *)
  Fixpoint fintegrate (f : func) (lo hi : T) : res T :=
    match f with
    | FConst c => Ok (c *~ (hi -~ lo))
    | FPoly cs => Ok (poly_integrate cs lo hi)
    | FTab t => tab_integrate t lo hi
    | FSum f g => let! a := fintegrate f lo hi in let! b := fintegrate g lo hi in Ok (a +~ b)
    | FDiff f g => let! a := fintegrate f lo hi in let! b := fintegrate g lo hi in Ok (a -~ b)
    end.
End Func.
Arguments func : clear implicits.
