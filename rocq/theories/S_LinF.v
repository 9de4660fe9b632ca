(** * Specification vocabulary for interpolation in double precision (C101): doubles are compared with the real numbers they stand for *)
From Coq Require Import Reals List ZArith Floats.
From Verif Require Import Base NumF S_PickF M_Grid.
Local Open Scope R_scope.

(** the straight line through (x1,y1) and (x2,y2) *)
Definition exact_line (x1 y1 x2 y2 x : R) : R := y1 + (x - x1) / (x2 - x1) * (y2 - y1).
(** [v] is [s] up to rounding errors of numbers up to [m]: relative 2^-49, and half the least positive double for underflow *)
Definition rounded (m v s : R) : Prop := Rabs (v - s) <= m / 2 ^ 49 + / 2 ^ 1074.
(** tabulated values: finite and at most 2^1023 (half the largest double) *)
Definition datum (y : PrimFloat.float) : Prop := fin y /\ BR y <= 2 ^ 1023.

(** what evaluating a cross section at the double [E] should return: [vals] the energy grid, [sig] the values from grid point [idx] on *)
Record evaluates (vals sig : list PrimFloat.float) (idx : Z) (E v : PrimFloat.float) : Prop := mkEv {
  ev_finite : fin v; ev_nonneg : 0 <= BR v;
  (** nothing below the threshold, the last value from the last energy on *)
  ev_below : forall e, atZ vals idx = Ok e -> PrimFloat.ltb E e = true -> v = 0%float;
  ev_above : forall e, atZ vals (sizeZ vals - 1) = Ok e -> PrimFloat.ltb E e = false -> atZ sig (sizeZ sig - 1) = Ok v;
  (** the tabulated value, exactly, at a grid energy (the first of repeated ones; the last energy is the case above) *)
  ev_at : forall k e l, (idx <= k)%Z -> atZ vals k = Ok e -> fin E -> BR E = BR e -> atZ vals (sizeZ vals - 1) = Ok l -> BR e < BR l ->
    (k = idx \/ exists e0, atZ vals (k - 1) = Ok e0 /\ BR e0 < BR e) -> atZ sig (k - idx) = Ok v;
  (** between grid energies the straight line up to rounding; never past the starting value in the wrong direction, past the other one by 2^-51 relative at most *)
  ev_between : forall k e1 e2 s1 s2, (idx <= k)%Z -> atZ vals k = Ok e1 -> atZ vals (k + 1) = Ok e2 -> atZ sig (k - idx) = Ok s1 -> atZ sig (k + 1 - idx) = Ok s2 ->
    fin E -> BR e1 < BR E < BR e2 ->
    rounded (Rmax (BR s1) (BR s2)) (BR v) (exact_line (BR e1) (BR s1) (BR e2) (BR s2) (BR E)) /\
    BR v <= (1 + / 2 ^ 51) * Rmax (BR s1) (BR s2) /\ (BR s1 <= BR s2 -> BR s1 <= BR v) /\ (BR s2 <= BR s1 -> BR v <= BR s1) }.
(** the same with a grid index given: [e1], [e2] the grid energies [i] and [i]+1 around [E] *)
Definition evaluates_i (sig : list PrimFloat.float) (idx i : Z) (e1 e2 E v : PrimFloat.float) : Prop :=
  fin v /\ 0 <= BR v /\ ((i < idx)%Z -> v = 0%float) /\
  forall s1 s2, (idx <= i)%Z -> atZ sig (i - idx) = Ok s1 -> atZ sig (i + 1 - idx) = Ok s2 ->
    rounded (Rmax (BR s1) (BR s2)) (BR v) (exact_line (BR e1) (BR s1) (BR e2) (BR s2) (BR E)) /\ BR v <= (1 + / 2 ^ 51) * Rmax (BR s1) (BR s2) /\ (BR s1 <= BR s2 -> BR s1 <= BR v) /\ (BR s2 <= BR s1 -> BR v <= BR s1).

(** what evaluating a lin-lin table at the double [E] should return; at an interior tabulated point the code still interpolates, so the tabulated value is met up to rounding *)
Record table_evaluates (xs ys : list PrimFloat.float) (E v : PrimFloat.float) : Prop := mkTev {
  te_finite : fin v; te_nonneg : 0 <= BR v;
  te_below : forall e, atZ xs 0 = Ok e -> PrimFloat.leb E e = true -> atZ ys 0 = Ok v;
  te_above : forall e e0, atZ xs (sizeZ xs - 1) = Ok e -> atZ xs 0 = Ok e0 -> PrimFloat.leb E e0 = false -> PrimFloat.leb e E = true -> atZ ys (sizeZ ys - 1) = Ok v;
  te_between : forall k e1 e2 s1 s2, atZ xs k = Ok e1 -> atZ xs (k + 1) = Ok e2 -> atZ ys k = Ok s1 -> atZ ys (k + 1) = Ok s2 -> fin E -> BR e1 < BR E <= BR e2 -> (forall l, atZ xs (sizeZ xs - 1) = Ok l -> BR E < BR l) ->
    rounded (Rmax (BR s1) (BR s2)) (BR v) (exact_line (BR e1) (BR s1) (BR e2) (BR s2) (BR E)) }.

(** a cross section built on the grid [g] from moderate values (at most 2^1000), by any of the three constructors *)
Definition moderate (y : PrimFloat.float) : Prop := fin y /\ BR y <= 2 ^ 1000.
Inductive built_on (lm : Libm) (g : egrid PrimFloat.float) : xsec PrimFloat.float -> Prop :=
| bo_vector sig idx x : (0 <= idx < 2 ^ 32)%Z -> @make_xs _ (NumF lm) sig g idx = Ok x -> Forall moderate sig -> built_on lm g x
| bo_file sig idx x : (0 <= idx < sizeZ (g_vals g))%Z -> (idx < 2 ^ 32)%Z -> @make_xs_ace _ (NumF lm) (idx + 1) sig g false = Ok x -> Forall moderate sig -> built_on lm g x
| bo_single y x : @make_xs_single _ (NumF lm) y g = Ok x -> moderate y -> built_on lm g x.
(** finite and not negative *)
Definition nonnegative (y : PrimFloat.float) : Prop := fin y /\ 0 <= BR y.
