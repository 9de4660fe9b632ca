(** * Property theorems C09, C10 *)
From Coquelicot Require Import Coquelicot.
From Verif Require Import Base NumR M_Interp M_Tab1D M_Func S_Interp S_Tab1D L_SearchR L_Tab1DI L_Func.
Local Open Scope R_scope.

(** C09.  [poly_from 0 c x] = c_0 + c_1 x + c_2 x^2 + ... (L_Func) *)
Theorem C09_polynomial_value : forall c x, poly_eval c x = poly_from 0 c x.
Proof. exact poly_eval_spec. Qed.
Theorem C09_polynomial_integral : forall c a b, is_RInt (fun x => poly_eval c x) a b (poly_integrate c a b).
Proof. exact poly_integrate_RInt. Qed.
Print Assumptions C09_polynomial_integral.
Example C09_case : poly_from 0 [2; 3; 5] 7 = 2 + 3 * 7 + 5 * 7 ^ 2.
Proof. cbn. ring. Qed.

(** C10 *)
Theorem C10_sum : forall (f g : func R) h, make_sum (Some f) (Some g) = Ok h ->
  (forall x a b, feval f x = Ok a -> feval g x = Ok b -> feval h x = Ok (a + b)) /\
  (forall lo hi a b, fintegrate f lo hi = Ok a -> fintegrate g lo hi = Ok b -> fintegrate h lo hi = Ok (a + b)).
Proof. exact sum_pointwise. Qed.
Theorem C10_difference : forall (f g : func R) h, make_diff (Some f) (Some g) = Ok h ->
  (forall x a b, feval f x = Ok a -> feval g x = Ok b -> feval h x = Ok (a - b)) /\
  (forall lo hi a b, fintegrate f lo hi = Ok a -> fintegrate g lo hi = Ok b -> fintegrate h lo hi = Ok (a - b)).
Proof. exact diff_pointwise. Qed.
Theorem C10_null_terms_rejected : forall {T} (f g : option (func T)),
  (make_sum f g = Throw <-> f = None \/ g = None) /\ (make_diff f g = Throw <-> f = None \/ g = None) /\
  (forall a b, f = Some a -> g = Some b -> exists h, make_sum f g = Ok h) /\
  (forall a b, f = Some a -> g = Some b -> exists h, make_diff f g = Ok h).
Proof. exact @sum_rejects. Qed.

(** every function composed of constants, polynomials, tables, sums and differences: the reported
    integral is the Riemann integral of the reported values *)
Theorem C10_integral_of_any_expression : forall lo hi f, good_on lo hi f ->
  forall a b, lo <= a <= hi -> lo <= b <= hi ->
  exists v, fintegrate f a b = Ok v /\
    is_RInt (fun x => match feval f x with Ok w => w | _ => 0 end) a b v.
Proof. exact good_integral. Qed.
Print Assumptions C10_integral_of_any_expression.
Example C10_hypotheses_met : good_on 0 1 (FDiff (FSum (FConst 2) (FPoly [1; 3])) (FPoly [])).
Proof. repeat constructor. Qed.
Print Assumptions C09_polynomial_value.
Print Assumptions C10_sum.
Print Assumptions C10_difference.
Print Assumptions C10_null_terms_rejected.
