(** * Specification of the five ENDF interpolation laws (independent of the model's formulas).
    Law n says which function of y is an affine function of which function of x between the two
    points: INT=1 constant, 2: y in x, 3: y in ln x, 4: ln y in x, 5: ln y in ln x. *)
From Coq Require Import Reals.
From Verif Require Import M_Interp.
Local Open Scope R_scope.

Definition x_scale (i : interpolation) (x : R) : R :=
  match i with LinLog | LogLog => ln (Rabs x) | _ => x end.
Definition y_scale (i : interpolation) (y : R) : R :=
  match i with LogLin | LogLog => ln (Rabs y) | _ => y end.

(** data for which the law is meaningful: increasing abscissae, no sign change under a logarithm *)
Definition valid_points (i : interpolation) (x1 y1 x2 y2 : R) : Prop :=
  x1 < x2 /\
  match i with LinLog | LogLog => 0 < x1 * x2 | _ => True end /\
  match i with LogLin | LogLog => 0 < y1 * y2 | _ => True end.

(** [y] is the value at [x] of the curve of law [i] through (x1,y1) and (x2,y2) *)
Definition on_curve (i : interpolation) (x1 y1 x2 y2 x y : R) : Prop :=
  match i with
  | Histogram => y = y1
  | _ => (y_scale i y - y_scale i y1) * (x_scale i x2 - x_scale i x1) =
         (y_scale i y2 - y_scale i y1) * (x_scale i x - x_scale i x1)
         /\ match i with LogLin | LogLog => 0 < y * y1 | _ => True end
  end.

(** data for which the closed-form segment integral is exact: not the constant LogLin segment, and
    for LogLog an exponent that is -1 or differs from it by more than 1e-12 *)
Definition exact_integral_data (i : interpolation) (x1 y1 x2 y2 : R) : Prop :=
  match i with
  | LogLin => y1 <> y2
  | LogLog => ln (y2 / y1) / ln (x2 / x1) + 1 = 0 \/
              1 / 1000000000000 < Rabs (ln (y2 / y1) / ln (x2 / x1) + 1)
  | _ => True
  end.

