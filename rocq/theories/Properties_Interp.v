(** * Property theorems C01, C02, C03 (interpolation.hpp) *)
From Coquelicot Require Import Coquelicot.
From Verif Require Import Base NumR NumF M_Interp S_Interp L_Interp L_Interp2 L_InterpF.
Local Open Scope R_scope.

(** C01.  For every law, all valid data and all x in [x1,x2]: the result is *the* point of the ENDF
    curve of that law, it equals y1 at x1 and (except Histogram) y2 at x2, lies between the
    ordinates, and is monotone in x. *)
Theorem C01_interpolate_is_the_law : forall i x1 y1 x2 y2, valid_points i x1 y1 x2 y2 ->
  forall x, x1 <= x <= x2 ->
  forall y, on_curve i x1 y1 x2 y2 x y <-> y = interpolate i x x1 y1 x2 y2.
Proof. exact interp_curve_iff. Qed.
Print Assumptions C01_interpolate_is_the_law.

Theorem C01_interpolate_endpoints : forall i x1 y1 x2 y2, valid_points i x1 y1 x2 y2 ->
  interpolate i x1 x1 y1 x2 y2 = y1 /\
  interpolate i x2 x1 y1 x2 y2 = match i with Histogram => y1 | _ => y2 end.
Proof. exact interp_ends. Qed.
Print Assumptions C01_interpolate_endpoints.

Theorem C01_interpolate_between_and_monotone : forall i x1 y1 x2 y2, valid_points i x1 y1 x2 y2 ->
  (forall x, x1 <= x <= x2 -> Rmin y1 y2 <= interpolate i x x1 y1 x2 y2 <= Rmax y1 y2) /\
  (forall x x', x1 <= x -> x <= x' -> x' <= x2 ->
     (y1 <= y2 -> interpolate i x x1 y1 x2 y2 <= interpolate i x' x1 y1 x2 y2) /\
     (y2 <= y1 -> interpolate i x' x1 y1 x2 y2 <= interpolate i x x1 y1 x2 y2)).
Proof. exact interp_between_mono. Qed.
Print Assumptions C01_interpolate_between_and_monotone.

Example C01_hypotheses_met : forall i, valid_points i 1 2 3 5.
Proof. exact valid_points_example. Qed.

(** C02.  inversion *)
Theorem C02_invert_interpolate : forall i x1 y1 x2 y2, i <> Histogram ->
  valid_points i x1 y1 x2 y2 -> y1 <> y2 -> forall x, x1 <= x <= x2 ->
  invert i (interpolate i x x1 y1 x2 y2) x1 y1 x2 y2 = x.
Proof. exact (fun i x1 y1 x2 y2 Hi H Hy x => invert_interpolate i x x1 y1 x2 y2 Hi H Hy). Qed.
Print Assumptions C02_invert_interpolate.

Theorem C02_interpolate_invert : forall i x1 y1 x2 y2, i <> Histogram ->
  valid_points i x1 y1 x2 y2 -> y1 <> y2 -> forall y, Rmin y1 y2 <= y <= Rmax y1 y2 ->
  x1 <= invert i y x1 y1 x2 y2 <= x2 /\
  interpolate i (invert i y x1 y1 x2 y2) x1 y1 x2 y2 = y.
Proof. exact interp_invert_both. Qed.
Print Assumptions C02_interpolate_invert.
Example C02_hypotheses_met : forall i, i <> Histogram -> valid_points i 1 2 3 5 /\ 2 <> 5 /\ interpolate i (invert i 3 1 2 3 5) 1 2 3 5 = 3.
Proof.
  intros i Hi. assert (V : valid_points i 1 2 3 5) by apply C01_hypotheses_met. assert (N : 2 <> 5) by lra. split; [exact V|]. split; [exact N|].
  apply (proj2 (C02_interpolate_invert i 1 2 3 5 Hi V N 3 ltac:(rewrite Rmin_left, Rmax_right by lra; lra))).
Qed.

(** C03.  segment integrals *)
Theorem C03_segment_integral_partial : forall i x1 y1 x2 y2,
  valid_points i x1 y1 x2 y2 -> exact_integral_data i x1 y1 x2 y2 ->
  forall a b, x1 <= a <= x2 -> x1 <= b <= x2 ->
  is_RInt (fun x => interpolate i x x1 y1 x2 y2) a b (integrate i a b x1 y1 x2 y2).
Proof. exact (fun i x1 y1 x2 y2 H D a b => integrate_is_RInt i a b x1 y1 x2 y2 H D). Qed.
Print Assumptions C03_segment_integral_partial.

Theorem C03_segment_integral_additive : forall i x1 y1 x2 y2, valid_points i x1 y1 x2 y2 ->
  forall a b c, x1 <= a <= x2 -> x1 <= b <= x2 -> x1 <= c <= x2 ->
  integrate i a b x1 y1 x2 y2 + integrate i b c x1 y1 x2 y2 = integrate i a c x1 y1 x2 y2 /\
  integrate i a a x1 y1 x2 y2 = 0 /\
  integrate i b a x1 y1 x2 y2 = - integrate i a b x1 y1 x2 y2.
Proof. exact integrate_chasles. Qed.
Print Assumptions C03_segment_integral_additive.

Example C03_hypotheses_met : forall i, valid_points i 1 2 3 5 /\ exact_integral_data i 1 2 3 5.
Proof. exact exact_integral_example. Qed.

(** The code violates C03 on a constant LogLin segment: on binary64 the result is NaN, for every libm
    with log(1)=0 and pow(1,y)=1 (as C requires), although the integral is 2. *)
Theorem C03_constant_loglin_segment_refuted : forall lm,
  lm_log lm 1 = 0%float -> (forall y, lm_pow lm 1 y = 1%float) ->
  exists r, @integrate _ (NumF lm) LogLin 1%float 2%float 1%float 2%float 3%float 2%float = r /\
            PrimFloat.is_nan r = true.
Proof. exact loglin_constant_nan. Qed.
Print Assumptions C03_constant_loglin_segment_refuted.
