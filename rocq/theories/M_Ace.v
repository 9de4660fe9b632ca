(** * Models of the ACE accessors (include/PapillonNDL/ace.hpp, src/ace.cpp) and of the constructors that read cross
    sections, multiplicities and yields from an ACE object *)
From Verif Require Import Base M_Interp M_Tab1D M_Func M_Grid.
Local Open Scope num_scope.

Section Ace.
  Context {T : Type} {N : Num T}.

  (** ace.hpp 311-325.  [a_nxs], [a_jxs]: the 16 and 32 entries (std::array).  The text fields and IZAW are in M_AceIO. *)
  Record ace := mkAce { a_zaid : Z; a_awr : T; a_temperature : T; a_fissile : bool; a_nxs : list Z; a_jxs : list Z; a_xss : list T }.

  (** ace.hpp 101, 115 with the constant indices used by the library (always inside the arrays) *)
  Definition nxs (a : ace) (k : nat) : Z := nth k (a_nxs a) 0%Z.
  Definition jxs (a : ace) (k : nat) : Z := nth k (a_jxs a) 0%Z.
  (** ace.hpp 229-309 *)
  Definition ESZ a := (jxs a 0 - 1)%Z.   Definition NU a := (jxs a 1 - 1)%Z.    Definition MTR a := (jxs a 2 - 1)%Z.
  Definition LQR a := (jxs a 3 - 1)%Z.   Definition TYR a := (jxs a 4 - 1)%Z.   Definition LSIG a := (jxs a 5 - 1)%Z.
  Definition SIG a := (jxs a 6 - 1)%Z.   Definition LAND a := (jxs a 7 - 1)%Z.  Definition AND a := (jxs a 8 - 1)%Z.
  Definition LDLW a := (jxs a 9 - 1)%Z.  Definition DLW a := (jxs a 10 - 1)%Z.  Definition GPD a := (jxs a 11 - 1)%Z.
  Definition LUNR a := (jxs a 22 - 1)%Z. Definition DNU a := (jxs a 23 - 1)%Z.  Definition BDD a := (jxs a 24 - 1)%Z.
  Definition DNEDL a := (jxs a 25 - 1)%Z. Definition DNED a := (jxs a 26 - 1)%Z.

  (** ace.hpp 128: unchecked.  A size_t index computed from a negative int32_t is huge modulo 2^64; since the arithmetic
      on indices is additive and far from 2^63, it is modelled in Z and negative means out of range. *)
  Definition xss (a : ace) (i : Z) : res T := atZ (a_xss a) i.
  (** static_cast<int32_t>(x): toward zero, undefined outside the range *)
  Definition trunc_i32 (x : T) : res Z :=
    let! z := (if x >=~ #0 then match nfloor x with Some z => Ok z | None => UB end
               else match nfloor (-~ x) with Some z => Ok (- z)%Z | None => UB end) in
    if ((- 2 ^ 31 <=? z) && (z <? 2 ^ 31))%Z%bool then Ok z else UB.
  (** ace.hpp 140-143 for T = uint32_t, int32_t/int *)
  Definition xss_u32 (a : ace) (i : Z) : res Z := let! x := xss a i in trunc_u32 x.
  Definition xss_i32 (a : ace) (i : Z) : res Z := let! x := xss a i in trunc_i32 x.
  (** Interpolation has uint32_t as underlying type; a value other than 1..5 selects no case in the Interpolator
      constructor (interpolation.hpp 313-331), which keeps the default alternative Histogram. *)
  Definition interp_of_code (c : Z) : interpolation :=
    match c with 2%Z => LinLin | 3%Z => LinLog | 4%Z => LogLin | 5%Z => LogLog | _ => Histogram end.
  Definition xss_interp (a : ace) (i : Z) : res interpolation := let! c := xss_u32 a i in Ok (interp_of_code c).
  (** the indices i, i+1, ..., i+len-1 *)
  Definition zseq (i : Z) (len : nat) : list Z := map (fun k => (i + Z.of_nat k)%Z) (seq 0 len).
  (** ace.cpp 346-350: an iterator range *)
  Definition xss_vec (a : ace) (i len : Z) : res (list T) := slice (a_xss a) i (i + len)%Z.
  (** ace.hpp 184-193 *)
  Definition xss_vec_u32 (a : ace) (i len : Z) : res (list Z) := mapR (xss_u32 a) (zseq i (Z.to_nat len)).
  Definition xss_vec_interp (a : ace) (i len : Z) : res (list interpolation) := mapR (xss_interp a) (zseq i (Z.to_nat len)).

  (** fission.cpp 279-284 *)
  Definition read_polynomial_nu (a : ace) (i : Z) : res (func T) :=
    let! NC := xss_u32 a i in
    let! c := xss_vec a (i + 1)%Z NC in
    Ok (FPoly c).
  (** fission.cpp 286-303, reaction_base.cpp 74-90 and delayed_family.cpp 46-61 (identical code).  2 * NR is uint32_t. *)
  Definition read_tab (a : ace) (i : Z) : res (tab T) :=
    let! NR := xss_u32 a i in
    let NR2 := wrap32 (2 * NR) in
    let! NE := xss_u32 a (i + 1 + NR2)%Z in
    let! energy := xss_vec a (i + 2 + NR2)%Z NE in
    let! y := xss_vec a (i + 2 + NR2 + NE)%Z NE in
    if ((NR =? 0) || (NR =? 1))%Z%bool then
      let! interp := (if (NR =? 1)%Z then xss_interp a (i + 2)%Z else Ok LinLin) in
      make_tab1 interp energy y
    else
      let! breaks := xss_vec_u32 a (i + 1)%Z NR in
      let! interps := xss_vec_interp a (i + 1 + NR)%Z NR in
      make_tab breaks interps energy y.
  (** fission.cpp 269-277 *)
  Definition read_nu (a : ace) (i : Z) : res (func T) :=
    let! LNU := xss_u32 a i in
    if (LNU =? 1)%Z then read_polynomial_nu a (i + 1)%Z
    else let! t := read_tab a (i + 1)%Z in Ok (FTab t).

  (** energy_grid.cpp 29-63 with NBINS bins (default N_LETHARGY_BINS); static_cast<size_t>(nxs(2)) of a negative value is
      a huge length, hence out of range.  The URR start energy (39-46) is read but not stored. *)
  Definition grid_of_ace (a : ace) (NBINS : nat) : res (egrid T) :=
    let! vals := xss_vec a (ESZ a) (nxs a 2) in
    (if (jxs a 22 =? 0)%Z then Ok #0 else xss a (wrap32 (jxs a 22 - 1 + 6))) ;;
    make_grid_ace vals NBINS.
  (** cross_section.cpp 30-62: get_index = false (the count is uint32_t of nxs(2)) and get_index = true *)
  Definition xs_of_ace (a : ace) (i : Z) (g : egrid T) (is_heating : bool) : res (xsec T) :=
    let! vals := xss_vec a i (wrap32 (nxs a 2)) in
    make_xs_ace 1 vals g is_heating.
  Definition xs_of_ace_indexed (a : ace) (i : Z) (g : egrid T) : res (xsec T) :=
    let! i1 := xss_u32 a i in
    let! NE := xss_u32 a (i + 1)%Z in
    let! vals := xss_vec a (i + 2)%Z NE in
    make_xs_ace i1 vals g false.
  (** cross_section.hpp 245 *)
  Definition xs_energy (x : xsec T) (i : Z) : res T := atZ (g_vals (x_grid x)) (x_index x + i)%Z.
End Ace.
Arguments ace : clear implicits.
