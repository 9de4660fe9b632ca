(** * Model of src/legendre.cpp *)
From Verif Require Import Base.
Local Open Scope num_scope.

Section Leg.
  Context {T : Type} {N : Num T}.

  (** legendre.cpp 71-78: the while loop, [n] iterations left *)
  Fixpoint leg_loop (n : nat) (l : Z) (x p3 p4 : T) : T :=
    match n with
    | O => p4
    | S m =>
        let '(p3, p4) := (p4, p3) in
        let p4 := ((#2 *~ nofZ l +~ #1) *~ x *~ p3 -~ nofZ l *~ p4) /~ (nofZ l +~ #1) in
        leg_loop m (l + 1)%Z x p3 p4
    end.
  (** legendre.cpp 44-83 *)
  Definition legendre (n : nat) (x : T) : T :=
    match n with
    | 0%nat => #1
    | 1%nat => x
    | 2%nat => nlit 1 2 *~ (#3 *~ x *~ x -~ #1)
    | 3%nat => nlit 1 2 *~ (#5 *~ x *~ x *~ x -~ #3 *~ x)
    | 4%nat => let x_2 := x *~ x in nlit 1 8 *~ (#35 *~ x_2 *~ x_2 -~ #30 *~ x_2 +~ #3)
    | _ =>
        let x_2 := x *~ x in
        let x_3 := x_2 *~ x in
        let x_4 := x_3 *~ x in
        let p3 := nlit 1 2 *~ (#5 *~ x_3 -~ #3 *~ x) in
        let p4 := nlit 1 8 *~ (#35 *~ x_4 -~ #30 *~ x_2 +~ #3) in
        leg_loop (n - 4) 4%Z x p3 p4
    end.

  (** legendre.cpp 110-118, from coefficient number l on *)
  Fixpoint leg_sum (a : list T) (l : nat) (mu acc : T) : T :=
    match a with
    | [] => acc
    | c :: t => leg_sum t (S l) mu (acc +~ c *~ legendre l mu)
    end.
  Definition leg_pdf (a : list T) (mu : T) : T := leg_sum a 0 mu #0.

  (** legendre.cpp 159-164 *)
  Fixpoint max_scan (n : nat) (a : list T) (mu pdf_max : T) : T :=
    match n with
    | O => pdf_max
    | S m =>
        let mu := mu +~ nlit 1 1000 in
        let p := leg_pdf a mu in
        max_scan m a mu (if p >~ pdf_max then p else pdf_max)
    end.
  (** legendre.cpp 153-167 (2000 steps) *)
  Definition steps : nat := Z.to_nat 2000.
  Definition find_max (a : list T) : T := nlit 1001 1000 *~ max_scan steps a (-~ #1) (leg_pdf a (-~ #1)).
  (** legendre.cpp 169-180: [n] more steps after the current point *)
  Fixpoint positive_scan (n : nat) (a : list T) (mu : T) : bool :=
    if leg_pdf a mu <~ #0 then false else
    match n with
    | O => true
    | S m => positive_scan m a (mu +~ nlit 1 1000)
    end.
  Definition positive (a : list T) : bool := positive_scan steps a (-~ #1).

  (** legendre.hpp 74-75 *)
  Record legd := mkLeg { lg_a : list T; lg_max : T }.
  (** legendre.cpp 86-92 *)
  Definition make_leg0 : res legd :=
    let a := [nlit 1 2] in
    let m := find_max a in
    if positive a then Ok (mkLeg a m) else Throw.
  (** legendre.cpp 99-101, from index l on *)
  Fixpoint scale_moments (l : Z) (a : list T) : list T :=
    match a with
    | [] => []
    | c :: t => (c *~ ((#2 *~ nofZ l +~ #1) /~ #2)) :: scale_moments (l + 1)%Z t
    end.
  (** legendre.cpp 94-108 *)
  Definition make_leg (a : list T) : res legd :=
    let a := scale_moments 0%Z (#1 :: a) in
    let m := find_max a in
    if positive a then Ok (mkLeg a m) else Throw.

  (** legendre.cpp 132-151: the object after the call and whether the call threw *)
  Definition set_moment (d : legd) (l : nat) (v : T) : legd * bool :=
    match l with
    | O => (d, true)
    | _ =>
        let a := if Nat.leb (length (lg_a d)) l then lg_a d ++ repeat #0 (l + 1 - length (lg_a d)) else lg_a d in
        let a := upd_nat a l (v *~ (#2 *~ nofZ (Z.of_nat l) +~ #1) /~ #2) in
        (mkLeg a (find_max a), negb (positive a))
    end.

  (** legendre.cpp 120-130 *)
  Fixpoint leg_sample (d : legd) (ds : list T) : res (T * list T) :=
    match ds with
    | x1 :: x2 :: ds' =>
        let mu := #2 *~ x1 -~ #1 in
        let P_accept := leg_pdf (lg_a d) mu /~ lg_max d in
        if x2 <~ P_accept then Ok (mu, ds') else leg_sample d ds'
    | _ => NoDraw
    end.
End Leg.
Arguments legd : clear implicits.
