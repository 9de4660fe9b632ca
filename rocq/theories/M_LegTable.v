(** * Model of the AngleTable constructor that tabulates a Legendre expansion (angle_table.cpp 84-113) *)
From Verif Require Import Base M_Interp M_Tab1D M_PC M_Legendre.
From Coq Require Import List. Import ListNotations.
Local Open Scope num_scope.

Section LegTable.
  Context {T : Type} {N : Num T}.
  Variable adj : T -> T -> bool.

  (** angle_table.cpp 93-99: the trapezoid sums, from the entry that holds [c] on *)
  Fixpoint trapezoid (x p : list T) (c : T) : list T :=
    match x, p with
    | x0 :: (x1 :: _) as xs, p0 :: (p1 :: _) as ps =>
        c :: trapezoid xs ps (nlit 1 2 *~ (p0 +~ p1) *~ (x1 -~ x0) +~ c)
    | _, _ => [c]
    end.

  (** angle_table.cpp 84-113.  The try/catch (88, 108-112) only adds to the message.  [fuel] bounds the iterations
      of linearize; the tolerance is linearize.hpp's default 0.001.  [linearize] returns at least two points. *)
  Definition angle_table_of_legendre (fuel : nat) (d : legd T) : res (pctable T) :=
    let! tab_pdf := linearize_interval adj fuel (-~ #1) #1 (leg_pdf (lg_a d)) (nlit 1 1000) in
    let cosines := t_x tab_pdf in
    let pdf := t_y tab_pdf in
    let cdf := trapezoid cosines pdf #0 in
    let! norm := backR cdf in
    make_pc cosines (map (fun p => p /~ norm) pdf) (map (fun c => c /~ norm) cdf) LinLin.
End LegTable.
