(** * Models of energy_grid.hpp/.cpp, cross_section.hpp/.cpp and ElasticDBRC::max_xs_value *)
From Verif Require Import Base.
Local Open Scope num_scope.

(** [static_cast<uint32_t>(x)] : truncation toward zero; undefined when the truncated value does not fit *)
Definition trunc_u32 {T} {N : Num T} (x : T) : res Z :=
  match nfloor x with
  | None => UB
  | Some z => if (0 <=? z)%Z then (if (z <? 2 ^ 32)%Z then Ok z else UB)
              else if x >~ -~ #1 then Ok 0%Z else UB
  end.
(** conversion of an integer to uint32_t / size_t *)
Definition wrap32 (z : Z) : Z := (z mod 2 ^ 32)%Z.
Definition wrap64 (z : Z) : Z := (z mod 2 ^ 64)%Z.

Section Grid.
  Context {T : Type} {N : Num T}.
  (** energy_grid.hpp 139-141 (urr_start_energy_ is not used by the lookups) *)
  Record egrid := mkGrid { g_vals : list T; g_ptrs : list Z; g_umin : T; g_du : T }.

  (** energy_grid.cpp 96-106: the bin bounds b = 1..n *)
  Fixpoint hash_loop (n : nat) (vals : list T) (du E : T) : res (list Z) :=
    match n with
    | O => Ok []
    | S m =>
        let E' := E *~ nexp du in
        let! k := lower_bound vals E' in
        let! rest := hash_loop m vals du E' in
        Ok (wrap32 (k - 1) :: rest)
    end.
  (** energy_grid.cpp 80-107 (NBINS + 1 does not wrap: NBINS < 2^32-1) *)
  Definition hash_grid (vals : list T) (NBINS : nat) : res egrid :=
    let! f := frontR vals in
    let! b := backR vals in
    let u_min := nlog f in
    let u_max := nlog b in
    let du := (u_max -~ u_min) /~ nofZ (Z.of_nat NBINS) in
    let! ptrs := hash_loop NBINS vals du f in
    Ok (mkGrid vals (0%Z :: ptrs) u_min du).
  (** energy_grid.cpp 65-78 *)
  Definition make_grid (vals : list T) (NBINS : nat) : res egrid :=
    guard (is_sorted vals) ;;
    let! f := frontR vals in
    if f <~ #0 then Throw else hash_grid vals NBINS.
  (** energy_grid.cpp 29-63 (the energy values already extracted from the ACE object; front <= 0 is rejected here) *)
  Definition make_grid_ace (vals : list T) (NBINS : nat) : res egrid :=
    guard (is_sorted vals) ;;
    let! f := frontR vals in
    if f <=~ #0 then Throw else hash_grid vals NBINS.

  (** energy_grid.hpp 110-130 *)
  Definition get_lower_index (g : egrid) (E : T) : res Z :=
    let! f := frontR (g_vals g) in
    if E <=~ f then Ok 0%Z else
    let! b := backR (g_vals g) in
    if E >=~ b then Ok (sizeZ (g_vals g) - 1)%Z else
    let! bin := trunc_u32 ((nlog E -~ g_umin g) /~ g_du g) in
    let! low := atZ (g_ptrs g) bin in
    let! p := atZ (g_ptrs g) (bin + 1)%Z in
    let hi := wrap32 (p + 1) in
    if ((sizeZ (g_vals g) <? hi) || (sizeZ (g_vals g) <? low))%Z%bool then UB else
    let! k := lower_bound_range (g_vals g) low hi E in
    Ok (wrap64 (k - 1)).

  (** cross_section.hpp private members (end of the class) *)
  Record xsec := mkXs { x_grid : egrid; x_vals : list T; x_index : Z; x_single : bool }.
  Definition any_negative (l : list T) : bool := existsb (fun v => v <~ #0) l.
  (** cross_section.cpp 64-91 *)
  Definition make_xs (vals : list T) (g : egrid) (index : Z) : res xsec :=
    let index := wrap32 index in
    if (sizeZ (g_vals g) <=? index)%Z then Throw else
    if any_negative vals then Throw else
    if negb (wrap64 (sizeZ (g_vals g) - index) =? sizeZ vals)%Z then Throw else
    Ok (mkXs g vals index false).
  (** cross_section.cpp 93-102 *)
  Definition make_xs_single (v : T) (g : egrid) : res xsec :=
    if v <~ #0 then Throw else Ok (mkXs g [v] 0%Z true).
  (** cross_section.cpp 30-62 with get_index = true: [i1] is the one-based index and [vals] the values read from the file *)
  Definition make_xs_ace (i1 : Z) (vals : list T) (g : egrid) (is_heating : bool) : res xsec :=
    let index := wrap32 (i1 - 1) in
    if negb (wrap64 (sizeZ (g_vals g) - index) =? sizeZ vals)%Z then Throw else
    if negb is_heating && any_negative vals then Throw else
    Ok (mkXs g vals index false).

  Definition lin (E El Eh sl sh : T) : T := ((E -~ El) /~ (Eh -~ El)) *~ (sh -~ sl) +~ sl.

  (** cross_section.hpp 88-97 *)
  Definition xs_at (x : xsec) (i : Z) : res T :=
    if x_single x then frontR (x_vals x) else
    if (i <? x_index x)%Z then Ok #0 else
    if (x_index x + sizeZ (x_vals x) <=? i)%Z then backR (x_vals x) else
    atZ (x_vals x) (i - x_index x)%Z.
  (** cross_section.hpp 104-134 *)
  Definition xs_eval (x : xsec) (E : T) : res T :=
    let gv := g_vals (x_grid x) in
    if x_single x then
      let! f := frontR gv in if E <~ f then Ok #0 else frontR (x_vals x)
    else
    let! e0 := atZ gv (x_index x) in
    if E <~ e0 then Ok #0 else
    let! em := backR gv in
    if E >=~ em then backR (x_vals x) else
    let! k := lower_bound_range gv (x_index x) (sizeZ gv) E in
    let! ek := atZ gv k in
    if E ==~ ek then atZ (x_vals x) (k - x_index x)%Z else
    let i := (k - x_index x - 1)%Z in
    let! El := atZ gv (x_index x + i)%Z in
    let! Eh := atZ gv (x_index x + i + 1)%Z in
    let! sl := atZ (x_vals x) i in
    let! sh := atZ (x_vals x) (i + 1)%Z in
    Ok (lin E El Eh sl sh).
  (** cross_section.hpp 143-163; [index_ + size - 1] is a size_t expression *)
  Definition xs_eval_i (x : xsec) (E : T) (i : Z) : res T :=
    let gv := g_vals (x_grid x) in
    if x_single x then
      let! f := frontR gv in if E <~ f then Ok #0 else frontR (x_vals x)
    else
    if (i <? x_index x)%Z then Ok #0 else
    if (wrap64 (x_index x + sizeZ (x_vals x) - 1) <=? i)%Z then backR (x_vals x) else
    let j := (i - x_index x)%Z in
    let! El := atZ gv (x_index x + j)%Z in
    let! Eh := atZ gv (x_index x + j + 1)%Z in
    let! sl := atZ (x_vals x) j in
    let! sh := atZ (x_vals x) (j + 1)%Z in
    Ok (lin E El Eh sl sh).
  (** cross_section.hpp 174-192 *)
  Definition xs_eval_ilh (x : xsec) (E : T) (i : Z) (El Eh : T) : res T :=
    let gv := g_vals (x_grid x) in
    if x_single x then
      let! f := frontR gv in if E <~ f then Ok #0 else frontR (x_vals x)
    else
    if (i <? x_index x)%Z then Ok #0 else
    if (wrap64 (x_index x + sizeZ (x_vals x) - 1) <=? i)%Z then backR (x_vals x) else
    let j := (i - x_index x)%Z in
    let! sl := atZ (x_vals x) j in
    let! sh := atZ (x_vals x) (j + 1)%Z in
    Ok (lin E El Eh sl sh).

  (** elastic_dbrc.cpp 42-44: i = i_min+1 .. i_max *)
  Fixpoint max_loop (n : nat) (vals : list T) (i : Z) (m : T) : res T :=
    match n with
    | O => Ok m
    | S k => let! v := atZ vals i in
             max_loop k vals (i + 1)%Z (if v >~ m then v else m)
    end.
  (** elastic_dbrc.cpp 33-47 *)
  Definition max_xs_value (x : xsec) (Emin Emax : T) : res T :=
    let! i_min := get_lower_index (x_grid x) Emin in
    let! xs_Emin := xs_eval x Emin in
    let! i_max := get_lower_index (x_grid x) Emax in
    let! xs_Emax := xs_eval x Emax in
    max_loop (Z.to_nat (i_max - i_min)) (x_vals x) (i_min + 1)%Z (nmax xs_Emin xs_Emax).
End Grid.
Arguments egrid : clear implicits.
Arguments xsec : clear implicits.
