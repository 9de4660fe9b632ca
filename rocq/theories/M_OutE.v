(** * Models of tabular_energy.cpp, energy_angle_table.hpp/.cpp, tabular_energy_angle.cpp, kalbach_table.hpp/.cpp, kalbach.cpp.
    The ACE constructors are modelled from the blocks of numbers they read; their messages are not modelled. *)
From Verif Require Import Base M_Interp M_PC.
Local Open Scope num_scope.

Section OutE.
  Context {T : Type} {N : Num T}.

  (** the search shared by the three distributions: tabular_energy.cpp 77-93 and 121-137, tabular_energy_angle.cpp 86-102, 138-154
      and 169-185, kalbach.cpp 84-100, 145-161 and 176-191. Index [size - 2] wraps when there is one energy; both the wrapped
      and the negative index are out of range, and [tables_[l]] is read first. *)
  Definition select (energy : list T) (E : T) : res (Z * T) :=
    let! k := lower_bound energy E in
    if (k =? 0)%Z then Ok (0%Z, #0)
    else if (k =? sizeZ energy)%Z then Ok ((sizeZ energy - 2)%Z, #1)
    else
      let l := (k - 1)%Z in
      let! e1 := atZ energy l in
      let! e2 := atZ energy (l + 1)%Z in
      Ok (l, (E -~ e1) /~ (e2 -~ e1)).
  (** the interpolated limits: tabular_energy.cpp 96-101 = 140-145, tabular_energy_angle.cpp 105-110 = 188-193, kalbach.cpp 103-108 = 194-199 *)
  Record ulim (tbl : Type) := mkU { u_t1 : tbl; u_a1 : T; u_b1 : T; u_t2 : tbl; u_a2 : T; u_b2 : T; u_min : T; u_max : T }.
  Definition limits {tbl} (mn mx : tbl -> res T) (tables : list tbl) (l : Z) (f : T) : res (ulim tbl) :=
    let! t1 := atZ tables l in
    let! a1 := mn t1 in
    let! b1 := mx t1 in
    let! t2 := atZ tables (l + 1)%Z in
    let! a2 := mn t2 in
    let! b2 := mx t2 in
    Ok (mkU tbl t1 a1 b1 t2 a2 b2 (a1 +~ f *~ (a2 -~ a1)) (b1 +~ f *~ (b2 -~ b1))).
  (** tabular_energy.cpp 115, tabular_energy_angle.cpp 127, kalbach.cpp 127 *)
  Definition unit_base (Emin Emax E_hat E1 EM : T) : T := Emin +~ ((E_hat -~ E1) /~ (EM -~ E1)) *~ (Emax -~ Emin).
  (** tabular_energy.cpp 156 = 162, tabular_energy_angle.cpp 203 = 209, kalbach.cpp 209 = 215 *)
  Definition unit_base_inv (Emin Emax E_out E1 EM : T) : T := ((E_out -~ Emin) /~ (Emax -~ Emin)) *~ (EM -~ E1) +~ E1.

  (** *** TabularEnergy *)
  Record tabe := mkTabE { te_in : list T; te_tables : list (pctable T) }.
  (** tabular_energy.cpp 59-73 (the ACE constructor, 27-57, does not check that the energies are sorted) *)
  Definition make_tabe (energy : list T) (tables : list (pctable T)) : res tabe :=
    guard (is_sorted energy) ;;
    guard (Nat.eqb (length energy) (length tables)) ;;
    Ok (mkTabE energy tables).
  (** tabular_energy.cpp 75-118 *)
  Definition te_sample (d : tabe) (E : T) : rand T T :=
    rlet! lf := rlift (select (te_in d) E) in
    let '(l, f) := lf in
    rlet! u := rlift (limits pc_min pc_max (te_tables d) l f) in
    rlet! x1 := draw in
    rlet! x2 := draw in
    if x1 >~ f then
      rlet! h := rlift (pc_sample (u_t1 _ u) x2) in rret (unit_base (u_min _ u) (u_max _ u) h (u_a1 _ u) (u_b1 _ u))
    else
      rlet! h := rlift (pc_sample (u_t2 _ u) x2) in rret (unit_base (u_min _ u) (u_max _ u) h (u_a2 _ u) (u_b2 _ u)).
  (** tabular_energy.cpp 120-166 *)
  Definition te_pdf (d : tabe) (E E_out : T) : res T :=
    let! lf := select (te_in d) E in
    let '(l, f) := lf in
    let! u := limits pc_min pc_max (te_tables d) l f in
    let! p1 := pc_pdf (u_t1 _ u) (unit_base_inv (u_min _ u) (u_max _ u) E_out (u_a1 _ u) (u_b1 _ u)) in
    let! p2 := pc_pdf (u_t2 _ u) (unit_base_inv (u_min _ u) (u_max _ u) E_out (u_a2 _ u) (u_b2 _ u)) in
    Ok (#0 +~ (#1 -~ f) *~ p1 +~ f *~ p2).

  (** *** EnergyAngleTable (energy_angle_table.hpp 204-208) *)
  Record eat := mkEAT { ea_energy : list T; ea_pdf : list T; ea_cdf : list T; ea_angles : list (pctable T); ea_interp : interpolation }.
  (** the checks of the two constructors: energy_angle_table.cpp 118-157 and 46-88 *)
  Definition make_eat (energy pdf cdf : list T) (angles : list (pctable T)) (i : interpolation) : res eat :=
    guard (table_interp i) ;;
    guard (is_sorted energy) ;;
    guard (is_sorted cdf) ;;
    let! c0 := atZ cdf 0%Z in
    if c0 !=~ #0 then Throw else
    let! cdf := fix_last cdf in
    guard (negb (existsb (fun p => p <~ #0) pdf)) ;;
    Ok (mkEAT energy pdf cdf angles i).
  (** energy_angle_table.cpp 160-166 *)
  Definition make_eat_pc (t : pctable T) (angles : list (pctable T)) : eat :=
    mkEAT (pc_values t) (pc_pdfs t) (pc_cdf t) angles (pc_interp t).
  Definition ea_min (t : eat) : res T := frontR (ea_energy t).
  Definition ea_max (t : eat) : res T := backR (ea_energy t).
  Definition ea_pc (t : eat) : pctable T := mkPC (ea_energy t) (ea_pdf t) (ea_cdf t) (ea_interp t).
  (** energy_angle_table.hpp 75-104; lines 210-219 are the code of pctable.hpp 144-153 *)
  Definition ea_sample (t : eat) : rand T (T * T) :=
    rlet! xi := draw in
    rlet! k := rlift (lower_bound (ea_cdf t) xi) in
    let l := (k - 1)%Z in
    rlet! flat := rlift (match ea_interp t with
      | Histogram => Ok true
      | _ => let! p1 := atZ (ea_pdf t) l in let! p2 := atZ (ea_pdf t) (l + 1)%Z in Ok (p1 ==~ p2) end) in
    if flat then
      rlet! E_out := rlift (pc_histogram (ea_pc t) xi l) in
      rlet! a := rlift (atZ (ea_angles t) l) in
      rlet! x2 := draw in
      rlet! mu := rlift (pc_sample a x2) in
      rret (clamp_mu mu, E_out)
    else
      rlet! E_out := rlift (pc_linear (ea_pc t) xi l) in
      rlet! c1 := rlift (atZ (ea_cdf t) l) in
      rlet! c2 := rlift (atZ (ea_cdf t) (l + 1)%Z) in
      let f := (xi -~ c1) /~ (c2 -~ c1) in
      rlet! a := rlift (atZ (ea_angles t) (if f <~ nlit 1 2 then l else (l + 1)%Z)) in
      rlet! x2 := draw in
      rlet! mu := rlift (pc_sample a x2) in
      rret (clamp_mu mu, E_out).
  (** energy_angle_table.hpp 113-121 and kalbach_table.hpp 150-158: [n] segments left from number i; [mu_p i] is the angular density at point i *)
  Fixpoint angle_sum (mu_p : Z -> res T) (energy pdf : list T) (interp : interpolation) (n : nat) (i : Z) (acc : T) : res T :=
    match n with
    | O => Ok acc
    | S m =>
        let! a1 := mu_p i in
        let! p1 := atZ pdf i in
        let! e2 := atZ energy (i + 1)%Z in
        let! e1 := atZ energy i in
        match interp with
        | Histogram => angle_sum mu_p energy pdf interp m (i + 1)%Z (acc +~ a1 *~ p1 *~ (e2 -~ e1))
        | _ =>
            let! a2 := mu_p (i + 1)%Z in
            let! p2 := atZ pdf (i + 1)%Z in
            angle_sum mu_p energy pdf interp m (i + 1)%Z (acc +~ nlit 1 2 *~ (e2 -~ e1) *~ (a1 *~ p1 +~ a2 *~ p2))
        end
    end.
  (** [pdf_.size() - 1] wraps when empty; the first read is then out of range *)
  Definition angle_pdf_of (mu_p : Z -> res T) (energy pdf : list T) (interp : interpolation) : res T :=
    match length pdf with O => UB | S n => angle_sum mu_p energy pdf interp n 0%Z #0 end.
  (** energy_angle_table.hpp 110-124 *)
  Definition ea_angle_pdf (t : eat) (mu : T) : res T :=
    angle_pdf_of (fun i => let! a := atZ (ea_angles t) i in pc_pdf a mu) (ea_energy t) (ea_pdf t) (ea_interp t).
  (** energy_angle_table.hpp 133-155 and kalbach_table.hpp 175-197 *)
  Definition joint_pdf (mu_p : Z -> res T) (energy pdf : list T) (interp : interpolation) (E_out : T) : res T :=
    let! k := lower_bound energy E_out in
    if (k =? sizeZ energy)%Z then Ok #0 else
    let! e0 := frontR energy in
    if (k =? 0)%Z && (E_out <~ e0) then Ok #0 else
    let! ek := atZ energy k in
    let l := if E_out !=~ ek then (k - 1)%Z else k in
    match interp with
    | Histogram =>
        let! a := mu_p l in
        let! p := atZ pdf l in
        Ok (a *~ p)
    | _ =>
        let! e1 := atZ energy l in
        let! e2 := atZ energy (l + 1)%Z in
        let f := (E_out -~ e1) /~ (e2 -~ e1) in
        let! a2 := mu_p (l + 1)%Z in
        let! p2 := atZ pdf (l + 1)%Z in
        let! a1 := mu_p l in
        let! p1 := atZ pdf l in
        Ok (#0 +~ f *~ a2 *~ p2 +~ (#1 -~ f) *~ a1 *~ p1)
    end.
  (** energy_angle_table.hpp 132-156 *)
  Definition ea_pdf2 (t : eat) (mu E_out : T) : res T :=
    joint_pdf (fun i => let! a := atZ (ea_angles t) i in pc_pdf a mu) (ea_energy t) (ea_pdf t) (ea_interp t) E_out.

  (** *** TabularEnergyAngle *)
  Record tea := mkTEA { tea_in : list T; tea_tables : list eat }.
  (** tabular_energy_angle.cpp 67-82 *)
  Definition make_tea (energy : list T) (tables : list eat) : res tea :=
    guard (is_sorted energy) ;;
    guard (Nat.eqb (length energy) (length tables)) ;;
    Ok (mkTEA energy tables).
  (** tabular_energy_angle.cpp 84-134 *)
  Definition tea_sample (d : tea) (E : T) : rand T (T * T) :=
    rlet! lf := rlift (select (tea_in d) E) in
    let '(l, f) := lf in
    rlet! u := rlift (limits ea_min ea_max (tea_tables d) l f) in
    rlet! x1 := draw in
    if x1 >~ f then
      rlet! p := ea_sample (u_t1 _ u) in rret (fst p, unit_base (u_min _ u) (u_max _ u) (snd p) (u_a1 _ u) (u_b1 _ u))
    else
      rlet! p := ea_sample (u_t2 _ u) in rret (fst p, unit_base (u_min _ u) (u_max _ u) (snd p) (u_a2 _ u) (u_b2 _ u)).
  (** tabular_energy_angle.cpp 136-165 *)
  Definition tea_angle_pdf (d : tea) (E mu : T) : res T :=
    let! lf := select (tea_in d) E in
    let '(l, f) := lf in
    let! t1 := atZ (tea_tables d) l in
    let! p1 := ea_angle_pdf t1 mu in
    let! t2 := atZ (tea_tables d) (l + 1)%Z in
    let! p2 := ea_angle_pdf t2 mu in
    Ok (#0 +~ (#1 -~ f) *~ p1 +~ f *~ p2).
  (** tabular_energy_angle.cpp 167-213 *)
  Definition tea_pdf (d : tea) (E mu E_out : T) : res T :=
    let! lf := select (tea_in d) E in
    let '(l, f) := lf in
    let! u := limits ea_min ea_max (tea_tables d) l f in
    let! p1 := ea_pdf2 (u_t1 _ u) mu (unit_base_inv (u_min _ u) (u_max _ u) E_out (u_a1 _ u) (u_b1 _ u)) in
    let! p2 := ea_pdf2 (u_t2 _ u) mu (unit_base_inv (u_min _ u) (u_max _ u) E_out (u_a2 _ u) (u_b2 _ u)) in
    Ok (#0 +~ (#1 -~ f) *~ p1 +~ f *~ p2).

  (** *** KalbachTable (kalbach_table.hpp 241-246) *)
  Record kt := mkKT { k_energy : list T; k_pdf : list T; k_cdf : list T; k_R : list T; k_A : list T; k_interp : interpolation }.
  (** kalbach_table.cpp 91-145; the ACE constructor (28-89) makes the same checks on five blocks of NP numbers *)
  Definition make_kt (energy pdf cdf R A : list T) (i : interpolation) : res kt :=
    guard (table_interp i) ;;
    guard (Nat.eqb (length energy) (length pdf) && Nat.eqb (length pdf) (length cdf) && Nat.eqb (length cdf) (length R) && Nat.eqb (length R) (length A)) ;;
    guard (is_sorted energy) ;;
    guard (is_sorted cdf) ;;
    let! c0 := atZ cdf 0%Z in
    if c0 !=~ #0 then Throw else
    let! cdf := fix_last cdf in
    guard (negb (existsb (fun p => p <~ #0) pdf)) ;;
    Ok (mkKT energy pdf cdf R A i).
  Definition k_min (t : kt) : res T := frontR (k_energy t).
  Definition k_max (t : kt) : res T := backR (k_energy t).
  (** kalbach_table.hpp 64-78, 248-257: the code of pctable.hpp 66-81, 144-153 *)
  Definition k_sample (t : kt) (xi : T) : res T := pc_sample (mkPC (k_energy t) (k_pdf t) (k_cdf t) (k_interp t)) xi.
  (** kalbach_table.hpp 94-112 and 118-136 *)
  Definition k_param (t : kt) (v : list T) (E : T) : res T :=
    let! e0 := frontR (k_energy t) in
    if E <=~ e0 then frontR v else
    let! en := backR (k_energy t) in
    if E >=~ en then backR v else
    let! k := lower_bound (k_energy t) E in
    let l := (k - 1)%Z in
    let! e1 := atZ (k_energy t) l in
    let! y1 := atZ v l in
    let! e2 := atZ (k_energy t) (l + 1)%Z in
    let! y2 := atZ v (l + 1)%Z in
    match k_interp t with
    | Histogram => Ok (interpolate Histogram E e1 y1 e2 y2)
    | _ => Ok (interpolate LinLin E e1 y1 e2 y2)
    end.
  Definition k_Rof (t : kt) (E : T) : res T := k_param t (k_R t) E.
  Definition k_Aof (t : kt) (E : T) : res T := k_param t (k_A t) E.
  (** kalbach_table.hpp 143-146 = 170-173 *)
  Definition mu_p (mu a r : T) : T := nlit 1 2 *~ (a /~ nsinh a) *~ (ncosh (a *~ mu) +~ r *~ nsinh (a *~ mu)).
  Definition k_mu (t : kt) (mu : T) (i : Z) : res T := let! a := atZ (k_A t) i in let! r := atZ (k_R t) i in Ok (mu_p mu a r).
  (** kalbach_table.hpp 142-161 *)
  Definition k_angle_pdf (t : kt) (mu : T) : res T := angle_pdf_of (k_mu t mu) (k_energy t) (k_pdf t) (k_interp t).
  (** kalbach_table.hpp 169-198 *)
  Definition k_pdf2 (t : kt) (mu E_out : T) : res T := joint_pdf (k_mu t mu) (k_energy t) (k_pdf t) (k_interp t) E_out.

  (** *** Kalbach *)
  Record kal := mkKal { kal_in : list T; kal_tables : list kt }.
  (** kalbach.cpp 66-80 *)
  Definition make_kal (energy : list T) (tables : list kt) : res kal :=
    guard (is_sorted energy) ;;
    guard (Nat.eqb (length energy) (length tables)) ;;
    Ok (mkKal energy tables).
  (** kalbach.cpp 129-139 *)
  Definition kal_mu (Rv Av : T) : rand T T :=
    rlet! x := draw in
    if x >~ Rv then
      rlet! y := draw in
      let TT := (#2 *~ y -~ #1) *~ nsinh Av in
      rret (clamp_mu ((#1 /~ Av) *~ nlog (TT +~ nsqrt (TT *~ TT +~ #1))))
    else
      rlet! y := draw in
      rret (clamp_mu ((#1 /~ Av) *~ nlog (y *~ nexp Av +~ (#1 -~ y) *~ nexp (-~ Av)))).
  (** kalbach.cpp 82-142 *)
  Definition kal_sample (d : kal) (E : T) : rand T (T * T) :=
    rlet! lf := rlift (select (kal_in d) E) in
    let '(l, f) := lf in
    rlet! u := rlift (limits k_min k_max (kal_tables d) l f) in
    rlet! x1 := draw in
    rlet! x2 := draw in
    let '(t, a, b) := if x1 >~ f then (u_t1 _ u, u_a1 _ u, u_b1 _ u) else (u_t2 _ u, u_a2 _ u, u_b2 _ u) in
    rlet! h := rlift (k_sample t x2) in
    rlet! Rv := rlift (k_Rof t h) in
    rlet! Av := rlift (k_Aof t h) in
    rlet! mu := kal_mu Rv Av in
    rret (mu, unit_base (u_min _ u) (u_max _ u) h a b).
  (** kalbach.cpp 144-172 *)
  Definition kal_angle_pdf (d : kal) (E mu : T) : res T :=
    let! lf := select (kal_in d) E in
    let '(l, f) := lf in
    let! t1 := atZ (kal_tables d) l in
    let! p1 := k_angle_pdf t1 mu in
    let! t2 := atZ (kal_tables d) (l + 1)%Z in
    let! p2 := k_angle_pdf t2 mu in
    Ok (#0 +~ (#1 -~ f) *~ p1 +~ f *~ p2).
  (** kalbach.cpp 174-219 *)
  Definition kal_pdf (d : kal) (E mu E_out : T) : res T :=
    let! lf := select (kal_in d) E in
    let '(l, f) := lf in
    let! u := limits k_min k_max (kal_tables d) l f in
    let! p1 := k_pdf2 (u_t1 _ u) mu (unit_base_inv (u_min _ u) (u_max _ u) E_out (u_a1 _ u) (u_b1 _ u)) in
    let! p2 := k_pdf2 (u_t2 _ u) mu (unit_base_inv (u_min _ u) (u_max _ u) E_out (u_a2 _ u) (u_b2 _ u)) in
    Ok (#0 +~ (#1 -~ f) *~ p1 +~ f *~ p2).
End OutE.
Arguments ulim : clear implicits.
Arguments mkU {T tbl}.
Arguments u_t1 {T tbl}. Arguments u_t2 {T tbl}. Arguments u_a1 {T tbl}. Arguments u_a2 {T tbl}.
Arguments u_b1 {T tbl}. Arguments u_b2 {T tbl}. Arguments u_min {T tbl}. Arguments u_max {T tbl}.
Arguments tabe : clear implicits. Arguments eat : clear implicits. Arguments tea : clear implicits. Arguments kt : clear implicits. Arguments kal : clear implicits.
