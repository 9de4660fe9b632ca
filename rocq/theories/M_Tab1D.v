(** * Model of include/PapillonNDL/tabulated_1d.hpp, src/tabulated_1d.cpp, src/linearize.cpp *)
From Verif Require Import Base M_Interp.
Local Open Scope num_scope.

Section Tab.
  Context {T : Type} {N : Num T}.

  (** the iterator range [v.begin()+lo, v.begin()+hi) as a span; forming it outside the vector is UB *)
  Definition slice {A} (v : list A) (lo hi : Z) : res (list A) :=
    if ((0 <=? lo) && (lo <=? hi) && (hi <=? sizeZ v))%Z
    then Ok (firstn (Z.to_nat (hi - lo)) (skipn (Z.to_nat lo) v)) else UB.

  (** tabulated_1d.hpp 264-268: class InterpolationRange (the spans are represented by the values
      they designate at construction; lifetime is treated separately in M_Span) *)
  Record range := mkRange { r_interp : interpolation; r_x : list T; r_y : list T }.

  (** tabulated_1d.cpp 140-164 *)
  Definition make_range (i : interpolation) (x y : list T) : res range :=
    guard (Nat.eqb (length x) (length y)) ;;
    guard (negb (Nat.eqb (length x) 0)) ;;
    guard (is_sorted x) ;;
    verify_x_grid i x ;;
    verify_y_grid i y ;;
    Ok (mkRange i x y).

  (** tabulated_1d.hpp 260-262 *)
  Definition range_min (r : range) : res T := frontR (r_x r).
  Definition range_max (r : range) : res T := backR (r_x r).

  (** tabulated_1d.hpp 178-196 *)
  Definition range_eval (r : range) (x : T) : res T :=
    let! mn := range_min r in
    if x <=~ mn then frontR (r_y r) else
    let! mx := range_max r in
    if x >=~ mx then backR (r_y r) else
    let! hi := lower_bound (r_x r) x in
    let low := (hi - 1)%Z in
    let! x1 := atZ (r_x r) low in
    let! x2 := atZ (r_x r) hi in
    let! y1 := atZ (r_y r) low in
    let! y2 := atZ (r_y r) (low + 1)%Z in
    Ok (interpolate (r_interp r) x x1 y1 x2 y2).

  (** tabulated_1d.hpp 226-251: the segment loop; [low] is low_it - begin() *)
  Fixpoint range_integrate_loop (fuel : nat) (r : range) (x_hi : T) (low : Z) (x_low_lim x_upp_lim integral : T)
    : res T :=
    match fuel with
    | O => NoDraw
    | S f =>
        let! x1 := atZ (r_x r) low in
        let! x2 := atZ (r_x r) (low + 1)%Z in
        let! y1 := atZ (r_y r) low in
        let! y2 := atZ (r_y r) (low + 1)%Z in
        let lo := if x_low_lim <~ x1 then x1 else x_low_lim in
        let up := if x_upp_lim >~ x2 then x2 else x_upp_lim in
        let integral' := integral +~ integrate (r_interp r) lo up x1 y1 x2 y2 in
        if up ==~ x_hi then Ok integral'
        else range_integrate_loop f r x_hi (low + 1)%Z up x_hi integral'
    end.

  (** the clamping of an integration limit pair to [mn,mx]: tabulated_1d.hpp 87-96 and 206-215 *)
  Definition clamp_low (mn mx a : T) : T := if a <=~ mn then mn else if a >=~ mx then mx else a.
  Definition clamp_hi (mn mx a : T) : T := if a >=~ mx then mx else if a <=~ mn then mn else a.

  (** tabulated_1d.hpp 198-256 *)
  Definition range_integrate (r : range) (a b : T) : res T :=
    let inverted := a >~ b in
    let x_low := if inverted then b else a in
    let x_hi := if inverted then a else b in
    let! mn := range_min r in
    let! mx := range_max r in
    let x_low := clamp_low mn mx x_low in
    let x_hi := clamp_hi mn mx x_hi in
    if x_low ==~ x_hi then Ok #0 else
    let! k := lower_bound (r_x r) x_low in
    let! xk := atZ (r_x r) k in
    let low := if xk >~ x_low then (k - 1)%Z else k in
    let! v := range_integrate_loop (S (length (r_x r))) r x_hi low x_low x_hi #0 in
    Ok (if inverted then -~ v else v).

  (** tabulated_1d.hpp 270-275 *)
  Record tab := mkTab {
    t_breakpoints : list Z; t_interpolation : list interpolation;
    t_x : list T; t_y : list T; t_regions : list range }.

  (** tabulated_1d.cpp 56-83.  size_t subtraction wraps: [hi - 1] and [x.size() - 1] *)
  Definition wrap64 (z : Z) : Z := (z mod 18446744073709551616)%Z.
  Fixpoint make_regions (bps : list Z) (ints : list interpolation) (low : Z) (x y : list T)
    : res (list range) :=
    match bps with
    | [] => Ok []
    | hi :: bps' =>
        match ints with
        | [] => UB        (* interpolation_[i] out of range; excluded by the size check *)
        | i :: ints' =>
            let! xs := slice x low hi in
            let! ys := slice y low hi in
            let! r := make_range i xs ys in
            let low1 := wrap64 (hi - 1)%Z in
            let! low2 :=
              (if (low1 <? wrap64 (sizeZ x - 1))%Z then
                 let! a := atZ x low1 in
                 let! b := atZ x (low1 + 1)%Z in
                 Ok (if a ==~ b then (low1 + 1)%Z else low1)
               else Ok low1) in
            let! rs := make_regions bps' ints' low2 x y in
            Ok (r :: rs)
        end
    end.

  (** tabulated_1d.cpp 31-84 *)
  Definition make_tab (NBT : list Z) (INT : list interpolation) (x y : list T) : res tab :=
    guard (Nat.eqb (length NBT) (length INT)) ;;
    guard (Nat.eqb (length x) (length y)) ;;
    guard (is_sorted x) ;;
    let! rs := make_regions NBT INT 0%Z x y in
    Ok (mkTab NBT INT x y rs).

  (** tabulated_1d.cpp 86-118.  The single breakpoint is x.size() truncated to uint32_t. *)
  Definition make_tab1 (interp : interpolation) (x y : list T) : res tab :=
    guard (Nat.eqb (length x) (length y)) ;;
    guard (is_sorted x) ;;
    let hi := (sizeZ x mod 4294967296)%Z in
    let! xs := slice x 0%Z hi in
    let! ys := slice y 0%Z hi in
    let! r := make_range interp xs ys in
    Ok (mkTab [hi] [interp] x y [r]).

  (** tabulated_1d.hpp 72-76: region search and evaluation *)
  Fixpoint regions_eval (rs : list range) (x : T) : res T :=
    match rs with
    | [] => UB
    | r :: rs' => let! m := range_max r in if m <~ x then regions_eval rs' x else range_eval r x
    end.

  (** tabulated_1d.hpp 66-77 *)
  Definition tab_eval (t : tab) (x : T) : res T :=
    let! mn := frontR (t_x t) in
    if x <=~ mn then let! r := frontR (t_regions t) in range_eval r x else
    let! mx := backR (t_x t) in
    if x >=~ mx then let! r := backR (t_regions t) in range_eval r x else
    regions_eval (t_regions t) x.

  (** tabulated_1d.hpp 100-121: region search (101-102) then the region loop *)
  Fixpoint regions_from (rs : list range) (x_low : T) : res (list range) :=
    match rs with
    | [] => UB
    | r :: rs' => let! m := range_max r in if m <~ x_low then regions_from rs' x_low else Ok rs
    end.
  Fixpoint regions_integrate_loop (rs : list range) (x_hi x_low_lim x_upp_lim integral : T) : res T :=
    match rs with
    | [] => UB
    | r :: rs' =>
        let! mn := range_min r in
        let! mx := range_max r in
        let lo := if x_low_lim <~ mn then mn else x_low_lim in
        let up := if x_upp_lim >~ mx then mx else x_upp_lim in
        let! v := range_integrate r lo up in
        let integral' := integral +~ v in
        if up ==~ x_hi then Ok integral'
        else regions_integrate_loop rs' x_hi up x_hi integral'
    end.

  (** tabulated_1d.hpp 79-126 *)
  Definition tab_integrate (t : tab) (a b : T) : res T :=
    let inverted := a >~ b in
    let x_low := if inverted then b else a in
    let x_hi := if inverted then a else b in
    let! mn := frontR (t_x t) in
    let! mx := backR (t_x t) in
    let x_low := clamp_low mn mx x_low in
    let x_hi := clamp_hi mn mx x_hi in
    if x_low ==~ x_hi then Ok #0 else
    let! rs := regions_from (t_regions t) x_low in
    let! v := regions_integrate_loop rs x_hi x_low x_hi #0 in
    Ok (if inverted then -~ v else v).

  (** ** linearize.cpp.  [adj a b] stands for [std::nextafter(a, b) == b]. *)
  Section Linearize.
    Variable adj : T -> T -> bool.

    Definition insert_at {A} (v : list A) (i : Z) (a : A) : list A :=
      firstn (Z.to_nat i) v ++ a :: skipn (Z.to_nat i) v.

    (** [v.size() - 1] as size_t: wraps to 2^64-1 for an empty vector *)
    Definition size_m1 {A} (v : list A) : Z :=
      if (sizeZ v =? 0)%Z then 18446744073709551615%Z else (sizeZ v - 1)%Z.

    (** linearize.cpp 50-76: the bisection loop; the fuel counts iterations *)
    Fixpoint linearize_loop (fuel : nat) (f : T -> T) (tol : T) (x y : list T) (i : Z)
      : res (list T * list T) :=
      match fuel with
      | O => NoDraw
      | S n =>
          if (i <? size_m1 x)%Z then
            let! xi := atZ x i in
            let! xi1 := atZ x (i + 1)%Z in
            if adj xi xi1 then linearize_loop n f tol x y (i + 1)%Z
            else
              let x_mid := nlit 1 2 *~ (xi +~ xi1) in
              let! yi := atZ y i in
              let! yi1 := atZ y (i + 1)%Z in
              let f_interp := nlit 1 2 *~ (yi +~ yi1) in
              let f_real := f x_mid in
              let rel_diff := nabs ((f_interp -~ f_real) /~ f_real) in
              if rel_diff >~ tol then
                linearize_loop n f tol (insert_at x (i + 1)%Z x_mid) (insert_at y (i + 1)%Z f_real) i
              else linearize_loop n f tol x y (i + 1)%Z
          else Ok (x, y)
      end.

    (** linearize.cpp 33-82 *)
    Definition linearize (fuel : nat) (i_x i_y : list T) (f : T -> T) (tol : T) : res tab :=
      guard (Nat.eqb (length i_x) (length i_y)) ;;
      guard (is_sorted i_x) ;;
      let! xy := linearize_loop fuel f tol i_x i_y 0%Z in
      make_tab1 LinLin (fst xy) (snd xy).

    (** linearize.cpp 84-99 *)
    Definition linearize_interval (fuel : nat) (x_min x_max : T) (f : T -> T) (tol : T) : res tab :=
      if x_max <=~ x_min then Throw else
      linearize fuel [x_min; x_max] [f x_min; f x_max] f tol.
  End Linearize.
End Tab.
Arguments range : clear implicits.
Arguments tab : clear implicits.
