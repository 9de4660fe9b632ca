(** * Models of the constructors that read the secondary distributions from an ACE object: pctable.cpp, equiprobable_angle_bins.cpp,
    angle_table.cpp, angle_distribution.cpp, tabular_energy.cpp, kalbach_table.cpp, kalbach.cpp, energy_angle_table.cpp,
    tabular_energy_angle.cpp, equiprobable_energy_bins.cpp, general_evaporation.cpp, maxwellian.cpp, evaporation.cpp, watt.cpp,
    level_inelastic_scatter.cpp, discrete_photon.hpp, nbody.cpp, and of the functions that choose among them:
    reaction_base.cpp, delayed_family.cpp, st_neutron.cpp.  Exception messages are not modelled. *)
From Verif Require Import Base M_Interp M_Tab1D M_Func M_Grid M_PC M_OutE M_Spectra M_Kin M_Ace M_Neutron.
Local Open Scope num_scope.

Section Laws.
  Context {T : Type} {N : Num T}.

  (** signed 32-bit arithmetic: overflow is undefined *)
  Definition i32 (z : Z) : res Z := if in_i32 z then Ok z else UB.

  (** pctable.cpp 32-40 = kalbach_table.cpp 30-38 = energy_angle_table.cpp 31-39: only the codes 1 and 2 pass *)
  Definition table_code (a : ace T) (i : Z) : res interpolation :=
    let! c := xss_u32 a i in
    if (c =? 1)%Z then Ok Histogram else if (c =? 2)%Z then Ok LinLin else Throw.
  (** pctable.cpp 30-89 *)
  Definition pc_of_ace (a : ace T) (i : Z) (normalization : T) : res (pctable T) :=
    let! it := table_code a i in
    let! NP := xss_u32 a (i + 1)%Z in
    guard (negb (NP =? 0)%Z) ;;
    let! values := xss_vec a (i + 2)%Z NP in
    let! pdf := xss_vec a (i + 2 + NP)%Z NP in
    let! cdf := xss_vec a (i + 2 + NP + NP)%Z NP in
    make_pc_ace values pdf cdf it normalization.
  (** equiprobable_angle_bins.cpp 30-55 (NBOUNDS = 33) *)
  Definition bins_of_ace (a : ace T) (i : Z) : res (list T) := let! b := xss_vec a i 33 in make_bins b.
  (** angle_table.cpp 31-47 (the default normalization is 1) *)
  Definition angle_table_of_ace (a : ace T) (i : Z) : res (pctable T) :=
    let! t := pc_of_ace a i #1 in make_angle_table t.
  (** angle_distribution.cpp 71-93: the law whose locator is at position [k] *)
  Definition angle_law_of_ace (a : ace T) (k : Z) : res (alaw T) :=
    let! l := xss_i32 a k in
    let! m := i32 (Z.abs l) in
    let! m := i32 (AND a + m) in
    let! m := i32 (m - 1) in
    let loc := wrap32 m in
    if (0 <? l)%Z then let! b := bins_of_ace a loc in Ok (angle_bins b)
    else if (l <? 0)%Z then let! t := angle_table_of_ace a loc in Ok (angle_table t)
    else Ok isotropic.
  (** angle_distribution.cpp 44-98 *)
  Definition adist_of_ace (a : ace T) (locb : Z) : res (adist T) :=
    if (locb <? 0)%Z then Throw else
    if (0 <? locb)%Z then
      let! m := i32 (AND a + locb) in
      let! i := i32 (m - 1) in
      let! NE := xss_u32 a i in
      let! energy := xss_vec a (i + 1)%Z NE in
      guard (is_sorted energy) ;;
      let! laws := mapR (angle_law_of_ace a) (zseq (i + 1 + NE) (Z.to_nat NE)) in
      Ok (mkADist energy laws)
    else Ok (mkADist [nlit 1 100000] [isotropic]).

  (** maxwellian.cpp 33-48, 55 = evaporation.cpp 31-47, 54 = general_evaporation.cpp 31-47, 64 = watt.cpp 33-52 (and 66-85)
      = reaction_base.cpp 201-217 (from i + 3 on): with NR = 0 there is one region ending at NE.  2 * NR is uint32_t.
      The result is (energies, values, construct), where [construct] makes the Tabulated1D. *)
  Definition read_pairs (a : ace T) (i : Z) : res (Z * Z * res (tab T)) :=
    let! NR := xss_u32 a i in
    let NR2 := wrap32 (2 * NR) in
    let! NE := xss_u32 a (i + 1 + NR2)%Z in
    let! reg := (if (NR =? 0)%Z then Ok ([NE], [LinLin])
                 else let! NBT := xss_vec_u32 a (i + 1)%Z NR in
                      let! INT := xss_vec_interp a (i + 1 + NR)%Z NR in Ok (NBT, INT)) in
    let! energy := xss_vec a (i + 2 + NR2)%Z NE in
    let! y := xss_vec a (i + 2 + NR2 + NE)%Z NE in
    Ok ((i + 2 + NR2)%Z, NE, make_tab (fst reg) (snd reg) energy y).

  (** the incident energies of the tabulated laws: NR, NE, energies; returns (position after the energies, energies).
      tabular_energy.cpp 30-38, kalbach.cpp 31-39, tabular_energy_angle.cpp 31-39, equiprobable_energy_bins.cpp 34-42 *)
  Definition read_incident (a : ace T) (i : Z) : res (Z * Z * list T) :=
    let! NR := xss_u32 a i in
    let NR2 := wrap32 (2 * NR) in
    let! NE := xss_u32 a (i + 1 + NR2)%Z in
    let! energy := xss_vec a (i + 2 + NR2)%Z NE in
    Ok ((i + 2 + NR2 + NE)%Z, NE, energy).
  (** one table per incident energy: the locator at [k] is relative to [base] (uint32_t arithmetic) *)
  Definition table_at {A} (mk : ace T -> Z -> res A) (a : ace T) (base k : Z) : res A :=
    let! x := xss_u32 a k in mk a (wrap32 (base + x - 1)).
  (** tabular_energy.cpp 27-57: no check of the order of the energies *)
  Definition tabe_of_ace (a : ace T) (i JED : Z) : res (tabe T) :=
    let! r := read_incident a i in
    let '(k, NE, energy) := r in
    let! ts := mapR (table_at (fun a l => pc_of_ace a l #1) a JED) (zseq k (Z.to_nat NE)) in
    Ok (mkTabE energy ts).
  (** kalbach_table.cpp 28-89 *)
  Definition kt_of_ace (a : ace T) (i : Z) : res (kt T) :=
    let! it := table_code a i in
    let! NP := xss_u32 a (i + 1)%Z in
    let! energy := xss_vec a (i + 2)%Z NP in
    let! pdf := xss_vec a (i + 2 + NP)%Z NP in
    let! cdf := xss_vec a (i + 2 + NP + NP)%Z NP in
    let! Rv := xss_vec a (i + 2 + NP + NP + NP)%Z NP in
    let! Av := xss_vec a (i + 2 + NP + NP + NP + NP)%Z NP in
    make_kt energy pdf cdf Rv Av it.
  (** kalbach.cpp 28-64 *)
  Definition kal_of_ace (a : ace T) (i : Z) : res (kal T) :=
    let! r := read_incident a i in
    let '(k, NE, energy) := r in
    guard (is_sorted energy) ;;
    let! ts := mapR (table_at kt_of_ace a (DLW a)) (zseq k (Z.to_nat NE)) in
    Ok (mkKal energy ts).
  (** energy_angle_table.cpp 90-95: the angular table of one outgoing energy *)
  Definition eat_angle_of_ace (a : ace T) (JED loc : Z) : res (pctable T) :=
    let! m := i32 (Z.abs loc) in pc_of_ace a (JED + m - 1)%Z #1.
  (** energy_angle_table.cpp 28-106 *)
  Definition eat_of_ace (a : ace T) (i JED : Z) : res (eat T) :=
    let! it := table_code a i in
    let! NP := xss_u32 a (i + 1)%Z in
    let! energy := xss_vec a (i + 2)%Z NP in
    let! pdf := xss_vec a (i + 2 + NP)%Z NP in
    let! cdf := xss_vec a (i + 2 + NP + NP)%Z NP in
    let! t := make_eat energy pdf cdf [] it in
    let! locs := mapR (xss_i32 a) (zseq (i + 2 + NP + NP + NP) (Z.to_nat NP)) in
    let! angles := mapR (eat_angle_of_ace a JED) locs in
    Ok (mkEAT (ea_energy t) (ea_pdf t) (ea_cdf t) angles (ea_interp t)).
  (** tabular_energy_angle.cpp 27-65 *)
  Definition tea_of_ace (a : ace T) (i JED : Z) : res (tea T) :=
    let! r := read_incident a i in
    let '(k, NE, energy) := r in
    guard (is_sorted energy) ;;
    let! ts := mapR (table_at (fun a l => eat_of_ace a l JED) a (DLW a)) (zseq k (Z.to_nat NE)) in
    Ok (mkTEA energy ts).
  (** equiprobable_energy_bins.cpp 31-69 (j * NET is size_t) *)
  Definition ebins_of_ace (a : ace T) (i : Z) : res (ebins T) :=
    let! r := read_incident a i in
    let '(k, NE, energy) := r in
    guard (is_sorted energy) ;;
    let! NET := xss_u32 a k in
    let! sets := mapR (fun j => xss_vec a (k + 1 + j * NET)%Z NET) (zseq 0 (Z.to_nat NE)) in
    guard (forallb is_sorted sets) ;;
    Ok (mkEB energy sets).
  (** general_evaporation.cpp 29-74: NX is read at the same position as the first bound *)
  Definition gevap_of_ace (a : ace T) (i : Z) : res (gevap T) :=
    let! r := read_pairs a i in
    let '(k, NE, mk) := r in
    let! NX := xss_u32 a (k + wrap32 (2 * NE))%Z in
    let! bounds := xss_vec a (k + wrap32 (2 * NE))%Z NX in
    guard (is_sorted bounds) ;;
    let! t := mk in
    Ok (mkGE (tab_eval t) bounds).
  (** maxwellian.cpp 31-65 and evaporation.cpp 29-63: temperature and restriction energy *)
  Definition temp_of_ace (a : ace T) (i : Z) : res (tab T * T) :=
    let! r := read_pairs a i in
    let '(k, NE, mk) := r in
    let! U := xss a (k + wrap32 (2 * NE))%Z in
    let! t := mk in
    Ok (t, U).
  (** watt.cpp 31-98 *)
  Definition watt_of_ace (a : ace T) (i : Z) : res (watt T) :=
    let! r := read_pairs a i in
    let '(k, NE, mk) := r in
    let! ta := mk in
    let i2 := (k + wrap32 (2 * NE))%Z in
    let! r := read_pairs a i2 in
    let '(k, NE, mk) := r in
    let! tb := mk in
    let! U := xss a (k + wrap32 (2 * NE))%Z in
    Ok (mkWatt (tab_eval ta) (tab_eval tb) U).
  (** level_inelastic_scatter.cpp 29-33 *)
  Definition level_of_ace (a : ace T) (i : Z) : res (level T) :=
    let! C1 := xss a i in let! C2 := xss a (i + 1)%Z in Ok (mkLevel C1 C2).
  (** discrete_photon.hpp 46-70 *)
  Definition dphoton_of_ace (a : ace T) (i : Z) : res (dphoton T) :=
    let! lp := xss_i32 a i in
    let! Eg := xss a (i + 1)%Z in
    make_dphoton lp Eg (a_awr a).
  (** nbody.cpp 31-58 *)
  Definition nbody_of_ace (a : ace T) (i : Z) (Q : T) : res (nbody T) :=
    let! n := xss_u32 a i in
    let! Ap := xss a (i + 1)%Z in
    make_nbody n Ap (a_awr a) Q.

  (** ** the classes behind the EnergyLaw and AngleEnergy pointers: their virtual functions *)
  Definition some_pdf (f : T -> T -> res T) (E x : T) : res (option T) := let! p := f E x in Ok (Some p).
  Definition ebins_law (d : ebins T) : elaw T := mkEL (eb_sample d) (some_pdf (eb_pdf d)).
  Definition dphoton_law (d : dphoton T) : elaw T := mkEL (dp_sample d) (fun _ _ => Ok None).
  Definition level_law (d : level T) : elaw T := mkEL (lv_sample d) (fun _ _ => Ok None).
  Definition tabe_law (d : tabe T) : elaw T := mkEL (te_sample d) (some_pdf (te_pdf d)).
  Definition gevap_law (d : gevap T) : elaw T := mkEL (ge_sample d) (some_pdf (ge_pdf d)).
  Definition mw_law (p : tab T * T) : elaw T := mkEL (mw_sample (tab_eval (fst p)) (snd p)) (some_pdf (mw_pdf (tab_eval (fst p)) (snd p))).
  Definition ev_law (p : tab T * T) : elaw T := mkEL (ev_sample (tab_eval (fst p)) (snd p)) (some_pdf (ev_pdf (tab_eval (fst p)) (snd p))).
  Definition watt_law (d : watt T) : elaw T := mkEL (w_sample d) (some_pdf (w_pdf d)).
  Definition some_pdf3 (f : T -> T -> T -> res T) (E mu x : T) : res (option T) := let! p := f E mu x in Ok (Some p).
  Definition uncor_law (d : uncor T) : aelaw T := mkAE (uc_sample d) (uc_angle_pdf d) (uc_pdf d).
  Definition kal_law (d : kal T) : aelaw T := mkAE (kal_sample d) (some_pdf (kal_angle_pdf d)) (some_pdf3 (kal_pdf d)).
  Definition tea_law (d : tea T) : aelaw T := mkAE (tea_sample d) (some_pdf (tea_angle_pdf d)) (some_pdf3 (tea_pdf d)).
  (** nbody.cpp 112-115, 117-139 *)
  Definition nbody_law (d : nbody T) : aelaw T := mkAE (nb_sample d) (fun _ _ => Ok (Some (nlit 1 2))) (fun E _ Eo => Ok (Some (nb_pdf d E Eo))).
  Definition multi_law (m : multi T) : aelaw T := mkAE (md_sample m) (md_angle_pdf m) (md_pdf m).
  (** absorption.hpp 44-63 *)
  Definition absorption_law (mt : Z) : aelaw T := mkAE (fun _ _ => Throw) (fun _ _ => Ok None) (fun _ _ _ => Ok None).
  (** cm_distribution.cpp 42-76 (as M_Kin.cm_angle_pdf, the wrapped density may fail) *)
  Definition cm_angle_pdf_r (angle_pdf : T -> T -> res (option T)) (awr q E_in mu : T) : res (option T) :=
    let '(w1, w2) := lab_to_cm_angle E_in awr q mu in
    let part w := match w with
                  | Some mu_cm => let! o := angle_pdf E_in mu_cm in
                                  Ok (match o with Some p => p *~ angle_jacobian_q E_in awr q mu mu_cm | None => #0 end)
                  | None => Ok #0 end in
    let! p1 := part w1 in
    let! p2 := part w2 in
    Ok (Some (p1 +~ p2)).
  (** cm_distribution.cpp 78-94 *)
  Definition cm_pdf_r (pdf : T -> T -> T -> res (option T)) (awr E_in mu E_out : T) : res (option T) :=
    let '(mu_cm, Eout_cm) := lab_to_cm E_in awr mu E_out in
    let! o := pdf E_in mu_cm Eout_cm in
    Ok (match o with Some p => Some (p *~ jacobian E_out Eout_cm) | None => None end).
  (** cm_distribution.hpp 51-52, .cpp *)
  Definition cm_law (awr q : T) (d : aelaw T) : aelaw T :=
    mkAE (cm_sample (ae_sample d) awr) (cm_angle_pdf_r (ae_angle_pdf d) awr q) (cm_pdf_r (ae_pdf d) awr).

  (** reaction_base.cpp 222-251: the energy law [law] whose data start at [j]; [None] = not one of these numbers *)
  Definition energy_law (a : ace T) (law j JED : Z) : option (res (elaw T)) :=
    if (law =? 1)%Z then Some (let! d := ebins_of_ace a j in Ok (ebins_law d))
    else if (law =? 2)%Z then Some (let! d := dphoton_of_ace a j in Ok (dphoton_law d))
    else if (law =? 3)%Z then Some (let! d := level_of_ace a j in Ok (level_law d))
    else if (law =? 4)%Z then Some (let! d := tabe_of_ace a j JED in Ok (tabe_law d))
    else if (law =? 5)%Z then Some (let! d := gevap_of_ace a j in Ok (gevap_law d))
    else if (law =? 7)%Z then Some (let! d := temp_of_ace a j in Ok (mw_law d))
    else if (law =? 9)%Z then Some (let! d := temp_of_ace a j in Ok (ev_law d))
    else if (law =? 11)%Z then Some (let! d := watt_of_ace a j in Ok (watt_law d))
    else None.
  (** reaction_base.cpp 219-275 *)
  Definition make_law (a : ace T) (angle : option (adist T)) (q : T) (law j : Z) : res (aelaw T) :=
    match energy_law a law j (DLW a) with
    | Some e => match angle with
                | Some ad => let! e := e in Ok (uncor_law (mkUC ad e))
                | None => Throw
                end
    | None =>
        if (law =? 44)%Z then let! d := kal_of_ace a j in Ok (kal_law d)
        else if (law =? 61)%Z then let! d := tea_of_ace a j (DLW a) in Ok (tea_law d)
        else if (law =? 66)%Z then let! d := nbody_of_ace a j q in Ok (nbody_law d)
        else Throw
    end.
  (** reaction_base.cpp 189-283: the while loop; the fuel counts turns *)
  Fixpoint law_loop (fuel : nat) (a : ace T) (angle : option (adist T)) (q : T) (i : Z) : res (list (aelaw T * tab T)) :=
    match fuel with
    | O => NoDraw
    | S n =>
        let! lnw := xss_u32 a i in
        let! law := xss_i32 a (i + 1)%Z in
        let! idat := xss_u32 a (i + 2)%Z in
        let! r := read_pairs a (i + 3)%Z in
        let! p := snd r in
        let! d := make_law a angle q law (DLW a + idat - 1)%Z in
        if (lnw =? 0)%Z then Ok [(d, p)]
        else let! l := law_loop n a angle q (DLW a + lnw - 1)%Z in Ok ((d, p) :: l)
    end.
  (** reaction_base.cpp 105-125 and 162-284 *)
  Definition load_neutron_fuel (fuel : nat) (a : ace T) (indx : Z) (q awr : T) (cm : bool) : res (aelaw T) :=
    let! locb := xss_i32 a (LAND a + indx + 1)%Z in
    let! angle := (if (0 <=? locb)%Z then let! d := adist_of_ace a locb in Ok (Some d) else Ok None) in
    let! locc := xss_u32 a (LDLW a + indx)%Z in
    let! l := law_loop fuel a angle q (DLW a + locc - 1)%Z in
    let! d := (match l with
               | [] => UB
               | [(d, _)] => Ok d
               | _ => let! m := make_multi (map (fun p => Some (fst p)) l) (map (fun p => Some (tab_eval (snd p))) l) in Ok (multi_law m)
               end) in
    Ok (if cm then cm_law awr q d else d).
  (** a loop that takes more turns than XSS has entries never ends (L_Laws.law_loop_forever) *)
  Definition load_neutron (a : ace T) (indx mt : Z) (q awr : T) (cm : bool) : res (aelaw T) :=
    load_neutron_fuel (S (length (a_xss a))) a indx q awr cm.
  (** delayed_family.cpp 63-104: laws 1, 4, 5, 7, 9, 11 of the first distribution; the next-law entry is read as int for
      the warning only *)
  Definition load_delayed_law (a : ace T) (g : Z) : res (elaw T) :=
    let! locc := xss_u32 a (DNEDL a + g - 1)%Z in
    let l := (DNED a + locc - 1)%Z in
    let! _ := xss_i32 a l in
    let! law := xss_i32 a (l + 1)%Z in
    let! idat := xss_u32 a (l + 2)%Z in
    if ((law =? 2) || (law =? 3))%Z%bool then Throw else
    match energy_law a law (DNED a + idat - 1)%Z (DNED a) with
    | Some e => e
    | None => Throw
    end.
  (** st_neutron.cpp 89-92: the angular distribution of elastic scattering *)
  Definition load_elastic_angle (a : ace T) : res (adist T) :=
    let! locb := xss_i32 a (LAND a) in adist_of_ace a locb.

  (** the constructors of M_Neutron with everything read from the file *)
  Definition reaction_of_ace := make_reaction load_neutron absorption_law.
  Definition neutron_of_ace := make_neutron load_neutron absorption_law load_delayed_law load_elastic_angle.
End Laws.
