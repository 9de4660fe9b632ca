(** * Models of pctable.hpp/.cpp, angle_table.cpp, equiprobable_angle_bins.cpp, isotropic.cpp, angle_distribution.cpp *)
From Verif Require Import Base M_Interp.
Local Open Scope num_scope.

Section PC.
  Context {T : Type} {N : Num T}.

  (** pctable.hpp 139-142 *)
  Record pctable := mkPC { pc_values : list T; pc_pdfs : list T; pc_cdf : list T; pc_interp : interpolation }.
  (** pctable.cpp 122-131 *)
  Definition fix_last (cdf : list T) : res (list T) :=
    let! c := atZ cdf (sizeZ cdf - 1)%Z in
    if c !=~ #1 then
      if nabs (c -~ #1) <~ nlit 1 10000000 then setZ cdf (sizeZ cdf - 1)%Z #1 else Throw
    else Ok cdf.
  Definition table_interp (i : interpolation) : bool := match i with Histogram | LinLin => true | _ => false end.
  (** pctable.cpp 91-139 *)
  Definition make_pc (values pdf cdf : list T) (i : interpolation) : res pctable :=
    guard (table_interp i) ;;
    guard (Nat.eqb (length values) (length pdf) && Nat.eqb (length pdf) (length cdf)) ;;
    guard (negb (Nat.eqb (length values) 0)) ;;
    guard (is_sorted values) ;;
    guard (is_sorted cdf) ;;
    let! cdf := fix_last cdf in
    guard (negb (existsb (fun p => p <~ #0) pdf)) ;;
    Ok (mkPC values pdf cdf i).
  (** pctable.cpp 30-89: [values], [pdf], [cdf] are the three blocks of NP entries read from the file *)
  Definition make_pc_ace (values pdf cdf : list T) (i : interpolation) (normalization : T) : res pctable :=
    guard (table_interp i) ;;
    guard (negb (Nat.eqb (length values) 0)) ;;
    let values := map (fun v => v *~ normalization) values in
    guard (is_sorted values) ;;
    guard (is_sorted cdf) ;;
    let! cdf := fix_last cdf in
    guard (negb (existsb (fun p => p <~ #0) pdf)) ;;
    Ok (mkPC values pdf cdf i).

  (** pctable.hpp 106-111 *)
  Definition pc_min (t : pctable) : res T := frontR (pc_values t).
  Definition pc_max (t : pctable) : res T := backR (pc_values t).
  (** pctable.hpp 144-146 *)
  Definition pc_histogram (t : pctable) (xi : T) (l : Z) : res T :=
    let! v := atZ (pc_values t) l in
    let! c := atZ (pc_cdf t) l in
    let! p := atZ (pc_pdfs t) l in
    Ok (v +~ ((xi -~ c) /~ p)).
  (** pctable.hpp 148-153 *)
  Definition pc_linear (t : pctable) (xi : T) (l : Z) : res T :=
    let! p2 := atZ (pc_pdfs t) (l + 1)%Z in
    let! p1 := atZ (pc_pdfs t) l in
    let! v2 := atZ (pc_values t) (l + 1)%Z in
    let! v1 := atZ (pc_values t) l in
    let! c := atZ (pc_cdf t) l in
    let m := (p2 -~ p1) /~ (v2 -~ v1) in
    let arg := p1 *~ p1 +~ #2 *~ m *~ (xi -~ c) in
    Ok (v1 +~ (#1 /~ m) *~ (nsqrt (nmax arg #0) -~ p1)).
  (** pctable.hpp 66-81 *)
  Definition pc_sample (t : pctable) (xi : T) : res T :=
    let! l := lower_bound (pc_cdf t) xi in
    let! c := atZ (pc_cdf t) l in
    if xi ==~ c then atZ (pc_values t) l else
    let l := (l - 1)%Z in
    match pc_interp t with
    | Histogram => pc_histogram t xi l
    | _ =>
        let! p1 := atZ (pc_pdfs t) l in
        let! p2 := atZ (pc_pdfs t) (l + 1)%Z in
        if p1 ==~ p2 then pc_histogram t xi l else pc_linear t xi l
    end.
  (** pctable.hpp 87-101 *)
  Definition pc_pdf (t : pctable) (v : T) : res T :=
    let! mn := pc_min t in
    if v <~ mn then Ok #0 else
    let! mx := pc_max t in
    if v >~ mx then Ok #0 else
    let! l := lower_bound (pc_values t) v in
    let! vl := atZ (pc_values t) l in
    if v ==~ vl then atZ (pc_pdfs t) l else
    let l := (l - 1)%Z in
    match pc_interp t with
    | Histogram => atZ (pc_pdfs t) l
    | _ =>
        let! v1 := atZ (pc_values t) l in
        let! p1 := atZ (pc_pdfs t) l in
        let! v2 := atZ (pc_values t) (l + 1)%Z in
        let! p2 := atZ (pc_pdfs t) (l + 1)%Z in
        Ok (linlin_interpolate v v1 p1 v2 p2)
    end.

  (** [if (std::abs(mu) > 1.) mu = std::copysign(1., mu);] *)
  Definition clamp_mu (mu : T) : T := if nabs mu >~ #1 then (if nsignbit mu then -~ #1 else #1) else mu.

  (** an angular law as its two virtual functions (angle_law.hpp 48-54) *)
  Record alaw := mkLaw { al_sample : rand T T; al_pdf : T -> res T }.

  (** isotropic.cpp 29-38 *)
  Definition isotropic : alaw := mkLaw
    (rlet! xi := draw in rret (clamp_mu (#2 *~ xi -~ #1)))
    (fun mu => Ok (if (mu <~ -~ #1) || (mu >~ #1) then #0 else nlit 1 2)).

  (** angle_table.cpp 31-82 : the check shared by the constructors *)
  Definition make_angle_table (t : pctable) : res pctable :=
    let! mn := pc_min t in
    if mn <~ -~ #1 then Throw else
    let! mx := pc_max t in
    if mx >~ #1 then Throw else Ok t.
  (** angle_table.cpp 115-119, angle_table.hpp 74 *)
  Definition angle_table (t : pctable) : alaw := mkLaw
    (rlet! xi := draw in rlet! mu := rlift (pc_sample t xi) in rret (clamp_mu mu))
    (pc_pdf t).

  (** equiprobable_angle_bins.cpp 57-78 *)
  Definition make_bins (bounds : list T) : res (list T) :=
    guard (Nat.eqb (length bounds) 33) ;;
    guard (is_sorted bounds) ;;
    let! b0 := atZ bounds 0%Z in
    if b0 <~ -~ #1 then Throw else
    let! bn := atZ bounds 32%Z in
    if bn >~ #1 then Throw else Ok bounds.
  Definition P_BIN : T := nlit 1 32.
  (** [static_cast<std::size_t>(std::floor(x))] *)
  Definition floor_size (x : T) : res Z :=
    match nfloor x with Some z => if (0 <=? z)%Z && (z <? 2 ^ 64)%Z then Ok z else UB | None => UB end.
  (** equiprobable_angle_bins.cpp 80-93 *)
  Definition bins_sample (bounds : list T) (xi : T) : res T :=
    let! bin := floor_size (#33 *~ xi) in
    let bin := if (bin =? 33)%Z then (bin - 1)%Z else bin in
    let C_b := nofZ bin *~ P_BIN in
    let! mu_low := atZ bounds bin in
    Ok (clamp_mu (((xi -~ C_b) /~ P_BIN) +~ mu_low)).
  (** equiprobable_angle_bins.cpp 98-104: the first bin holding mu, 0 if none; [n] bins left *)
  Fixpoint find_bin (n : nat) (bounds : list T) (mu : T) (i : Z) : res Z :=
    match n with
    | O => Ok 0%Z
    | S m =>
        let! lo := atZ bounds i in
        if lo <=~ mu then
          let! hi := atZ bounds (i + 1)%Z in
          if hi >=~ mu then Ok i else find_bin m bounds mu (i + 1)%Z
        else find_bin m bounds mu (i + 1)%Z
    end.
  (** equiprobable_angle_bins.cpp 95-109 *)
  Definition bins_pdf (bounds : list T) (mu : T) : res T :=
    let! f := frontR bounds in
    if mu <~ f then Ok #0 else
    let! b := backR bounds in
    if mu >~ b then Ok #0 else
    let! bin := find_bin 32 bounds mu 0%Z in
    let! lo := atZ bounds bin in
    let! hi := atZ bounds (bin + 1)%Z in
    Ok (P_BIN /~ (hi -~ lo)).
  Definition angle_bins (bounds : list T) : alaw := mkLaw
    (rlet! xi := draw in rlift (bins_sample bounds xi)) (bins_pdf bounds).

  (** angle_distribution.hpp 100-101 *)
  Record adist := mkADist { ad_energy : list T; ad_laws : list alaw }.
  (** angle_distribution.cpp 33-42 *)
  Definition adist_default : adist := mkADist [nlit 1 100000000000; #200] [isotropic; isotropic].
  (** angle_distribution.cpp 100-114 *)
  Definition make_adist (energy : list T) (laws : list alaw) : res adist :=
    guard (Nat.eqb (length energy) (length laws)) ;;
    guard (is_sorted energy) ;;
    Ok (mkADist energy laws).
  (** angle_distribution.cpp 116-140 *)
  Definition adist_sample (a : adist) (E : T) : rand T T :=
    rlet! k := rlift (lower_bound (ad_energy a) E) in
    if (k =? 0)%Z then rlet! l := rlift (frontR (ad_laws a)) in al_sample l
    else if (k =? sizeZ (ad_energy a))%Z then rlet! l := rlift (backR (ad_laws a)) in al_sample l
    else
      let l := (k - 1)%Z in
      rlet! e1 := rlift (atZ (ad_energy a) l) in
      rlet! e2 := rlift (atZ (ad_energy a) (l + 1)%Z) in
      let f := (E -~ e1) /~ (e2 -~ e1) in
      rlet! xi := draw in
      rlet! law := rlift (atZ (ad_laws a) (if xi >~ f then l else (l + 1)%Z)) in
      rlet! mu := al_sample law in
      rret (clamp_mu mu).
  (** angle_distribution.cpp 142-156 *)
  Definition adist_pdf (a : adist) (E mu : T) : res T :=
    let! k := lower_bound (ad_energy a) E in
    if (k =? 0)%Z then let! l := frontR (ad_laws a) in al_pdf l mu
    else if (k =? sizeZ (ad_energy a))%Z then let! l := backR (ad_laws a) in al_pdf l mu
    else
      let l := (k - 1)%Z in
      let! e1 := atZ (ad_energy a) l in
      let! e2 := atZ (ad_energy a) (l + 1)%Z in
      let f := (E -~ e1) /~ (e2 -~ e1) in
      let! l1 := atZ (ad_laws a) l in
      let! p1 := al_pdf l1 mu in
      let! l2 := atZ (ad_laws a) (l + 1)%Z in
      let! p2 := al_pdf l2 mu in
      Ok ((#1 -~ f) *~ p1 +~ f *~ p2).
End PC.
Arguments pctable : clear implicits.
Arguments alaw : clear implicits.
Arguments adist : clear implicits.
