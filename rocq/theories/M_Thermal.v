(** * Models of the thermal scattering classes: st_coherent_elastic, st_incoherent_elastic_ace, discrete_cosines_energies,
    continuous_energy_discrete_cosines, st_incoherent_inelastic, st_thermal_scattering_law *)
From Verif Require Import Base M_Interp M_Tab1D M_Func M_Grid M_Ace M_PC M_OutE.
Local Open Scope num_scope.

Section Thermal.
  Context {T : Type} {N : Num T}.

  (** ** STCoherentElastic (st_coherent_elastic.hpp 127-129) *)
  Record coh := mkCoh { c_edges : list T; c_sum : list T }.
  (** st_coherent_elastic.cpp 30-52; [jxs(3) - 1] is int32_t cast to size_t *)
  Definition make_coh (a : ace T) : res coh :=
    if (nxs a 4 =? 4)%Z then
      let i := (jxs a 3 - 1)%Z in
      let! Ne := xss_u32 a i in
      let! edges := xss_vec a (i + 1)%Z Ne in
      let! sums := xss_vec a (i + 1 + Ne)%Z Ne in
      guard (is_sorted edges) ;;
      let! e0 := frontR edges in
      if e0 <~ #0 then Throw else Ok (mkCoh edges sums)
    else Ok (mkCoh [] []).
  (** st_coherent_elastic.hpp 52-66 *)
  Definition coh_xs (c : coh) (E : T) : res T :=
    if (sizeZ (c_edges c) =? 0)%Z then Ok #0 else
    let! e0 := frontR (c_edges c) in
    let! en := backR (c_edges c) in
    if (E >~ e0) && (E <~ en) then
      let! k := lower_bound (c_edges c) E in
      let! s := atZ (c_sum c) (k - 1)%Z in Ok (s /~ E)
    else if E <~ e0 then Ok #0
    else let! s := backR (c_sum c) in Ok (s /~ E).
  (** st_coherent_elastic.hpp 68-103; the packet is (cosine, energy) *)
  Definition coh_sample (c : coh) (E : T) : rand T (T * T) :=
    if (sizeZ (c_edges c) =? 0)%Z then rlift Throw else
    rlet! e0 := rlift (frontR (c_edges c)) in
    if E >~ e0 then
      rlet! k := rlift (lower_bound (c_edges c) E) in
      let l := (k - 1)%Z in
      rlet! xi := draw in
      rlet! s := rlift (atZ (c_sum c) l) in
      let prob := xi *~ s in
      rlet! Si := rlift (lower_bound_range (c_sum c) 0%Z l prob) in
      rlet! Eb := rlift (atZ (c_edges c) Si) in
      rret (#1 -~ (#2 *~ Eb /~ E), E)
    else rret (#1, E).

  (** smearing shared by st_incoherent_elastic_ace.hpp 83-99 and continuous_energy_discrete_cosines.cpp 274-296 = 347-369: [row1], [row2]
      the two cosine vectors, [f] the interpolation factor, [k] the sampled index, [n] = Nmu (uint32_t), [xi] the last random number *)
  Definition lerp_at (row1 row2 : list T) (f : T) (k : Z) : res T :=
    let! a := atZ row1 k in
    let! b := atZ row2 k in
    Ok (a +~ f *~ (b -~ a)).
  Definition smear (row1 row2 : list T) (f : T) (k n : Z) : rand T T :=
    rlet! mu' := rlift (lerp_at row1 row2 f k) in
    rlet! lft := rlift (if (k =? 0)%Z then Ok (-~ #1 -~ (mu' +~ #1)) else lerp_at row1 row2 f (k - 1)%Z) in
    rlet! rgt := rlift (if (k =? wrap32 (n - 1))%Z then Ok (#1 -~ (mu' -~ #1)) else lerp_at row1 row2 f (k + 1)%Z) in
    rlet! xi := draw in
    rret (mu' +~ nmin (mu' -~ lft) (rgt -~ mu') *~ (xi -~ nlit 1 2)).

  (** ** STIncoherentElasticACE (st_incoherent_elastic_ace.hpp 131-135) *)
  Record inco := mkInco { ie_xs : tab T; ie_nmu : Z; ie_in : list T; ie_cos : list (list T) }.
  (** st_incoherent_elastic_ace.cpp 60-86: [k] incoming energies left, reading from [i] *)
  Fixpoint read_cosines (k : nat) (a : ace T) (i nmu : Z) : res (list (list T)) :=
    match k with
    | O => Ok []
    | S m =>
      let! row := xss_vec a i nmu in
      guard (is_sorted row) ;;
      let! c0 := frontR row in
      if c0 <~ -~ #1 then Throw else
      let! cn := backR row in
      if cn >~ #1 then Throw else
      let! rest := read_cosines m a (i + nmu)%Z nmu in
      Ok (row :: rest)
    end.
  (** st_incoherent_elastic_ace.cpp 28-88 *)
  Definition make_inco (a : ace T) : res inco :=
    if ((nxs a 4 =? 4) || (jxs a 3 =? 0))%Z%bool then
      let! t := make_tab1 Histogram [#0; #100] [#0; #0] in
      Ok (mkInco t 0%Z [] [])
    else
      let i := (jxs a 3 - 1)%Z in
      let! Ne := xss_u32 a i in
      let! energy := xss_vec a (i + 1)%Z Ne in
      let! vals := xss_vec a (i + 1 + Ne)%Z Ne in
      guard (negb (existsb (fun x => x <~ #0) vals)) ;;
      let! t := make_tab1 LinLin energy vals in
      let nmu := wrap32 (nxs a 5 + 1) in
      let! rows := read_cosines (Z.to_nat Ne) a (jxs a 5 - 1)%Z nmu in
      Ok (mkInco t nmu energy rows).
  (** st_incoherent_elastic_ace.hpp 51 *)
  Definition inco_xs (d : inco) (E : T) : res T := tab_eval (ie_xs d) E.
  (** st_incoherent_elastic_ace.hpp 53-102: the search (62-78) is [select]; the result is not clamped *)
  Definition inco_sample (d : inco) (E : T) : rand T (T * T) :=
    if (sizeZ (ie_in d) =? 0)%Z then rlift Throw else
    rlet! lf := rlift (select (ie_in d) E) in
    let '(i, f) := lf in
    rlet! x := draw in
    rlet! j := rlift (trunc_u32 (nofZ (ie_nmu d) *~ x)) in
    rlet! row1 := rlift (atZ (ie_cos d) i) in
    rlet! row2 := rlift (atZ (ie_cos d) (i + 1)%Z) in
    rlet! mu := smear row1 row2 f j (ie_nmu d) in
    rret (mu, E).

  (** ** DiscreteCosinesEnergies (discrete_cosines_energies.hpp 51-54, 84-87) *)
  Record dce := mkDCE { d_in : list T; d_out : list (list (T * list T)); d_noe : Z; d_nmu : Z; d_skewed : bool }.
  (** discrete_cosines_energies.cpp 81-105: [k] outgoing energies left *)
  Fixpoint read_dce_row (k : nat) (a : ace T) (i nmu : Z) : res (list (T * list T) * Z) :=
    match k with
    | O => Ok ([], i)
    | S m =>
      let! E := xss a i in
      if E <=~ #0 then Throw else
      let! mu := xss_vec a (i + 1)%Z nmu in
      guard (negb (existsb (fun x => (x <~ -~ #1) || (x >~ #1)) mu)) ;;
      let! r := read_dce_row m a (i + 1 + nmu)%Z nmu in
      let '(rest, i) := r in
      Ok ((E, mu) :: rest, i)
    end.
  (** discrete_cosines_energies.cpp 76-106 *)
  Fixpoint read_dce (k noe : nat) (a : ace T) (i nmu : Z) : res (list (list (T * list T))) :=
    match k with
    | O => Ok []
    | S m =>
      let! r := read_dce_row noe a i nmu in
      let '(row, i) := r in
      let! rest := read_dce m noe a i nmu in
      Ok (row :: rest)
    end.
  (** discrete_cosines_energies.cpp 33-107 *)
  Definition make_dce (a : ace T) : res dce :=
    guard ((nxs a 6 =? 0) || (nxs a 6 =? 1))%Z ;;
    let skewed := (nxs a 6 =? 1)%Z in
    let S := (jxs a 0 - 1)%Z in
    let! Ne := xss_u32 a S in
    let! energy := xss_vec a (S + 1)%Z Ne in
    guard (is_sorted energy) ;;
    let noe := wrap32 (nxs a 3) in
    guard (negb (skewed && (noe <? 6)%Z)) ;;
    let nmu := wrap32 (nxs a 2 + 1) in
    let! out := read_dce (Z.to_nat Ne) (Z.to_nat noe) a (jxs a 2 - 1)%Z nmu in
    Ok (mkDCE energy out noe nmu skewed).
  (** discrete_cosines_energies.cpp 113-137; (Noe - 4) is uint32_t *)
  Definition dce_index (d : dce) : rand T Z :=
    let noe := d_noe d in
    if negb (d_skewed d) then rlet! x := draw in rlift (trunc_u32 (nofZ noe *~ x))
    else
      let c := #1 /~ (#10 *~ (nofZ noe -~ #3)) in
      rlet! xi := draw in
      if (xi >=~ #5 *~ c) && (xi <~ #1 -~ #5 *~ c) then
        rlet! x := draw in rlift (trunc_u32 (nofZ (wrap32 (noe - 4)) *~ x +~ #2))
      else if xi <~ c then rret 0%Z
      else if (xi >=~ c) && (xi <~ #5 *~ c) then rret 1%Z
      else if (xi >=~ #1 -~ #5 *~ c) && (xi <~ #1 -~ c) then rret (wrap32 (noe - 2))
      else rret (wrap32 (noe - 1)).
  (** [outgoing_energies_[i][j].cosines[k]] and [.energy] *)
  Definition dce_at (row : list (T * list T)) (j k : Z) : res (T * T) :=
    let! p := atZ row j in
    let! mu := atZ (snd p) k in
    Ok (mu, fst p).
  (** discrete_cosines_energies.cpp 109-167 *)
  Definition dce_sample (d : dce) (E : T) : rand T (T * T) :=
    rlet! x := draw in
    rlet! k := rlift (trunc_u32 (nofZ (d_nmu d) *~ x)) in
    rlet! j := dce_index d in
    rlet! it := rlift (lower_bound (d_in d) E) in
    if (it =? 0)%Z then rlet! row := rlift (frontR (d_out d)) in rlift (dce_at row j k)
    else if (it =? sizeZ (d_in d))%Z then rlet! row := rlift (backR (d_out d)) in rlift (dce_at row j k)
    else
      let i := (it - 1)%Z in
      rlet! e1 := rlift (atZ (d_in d) i) in
      rlet! e2 := rlift (atZ (d_in d) (i + 1)%Z) in
      let f := (E -~ e1) /~ (e2 -~ e1) in
      rlet! row1 := rlift (atZ (d_out d) i) in
      rlet! row2 := rlift (atZ (d_out d) (i + 1)%Z) in
      rlet! p1 := rlift (dce_at row1 j k) in
      rlet! p2 := rlift (dce_at row2 j k) in
      let Eo := snd p1 +~ f *~ (snd p2 -~ snd p1) in
      let mu := fst p1 +~ f *~ (fst p2 -~ fst p1) in
      rret (clamp_mu mu, Eo).

  (** ** ContinuousEnergyDiscreteCosines (continuous_energy_discrete_cosines.hpp 56-72, 113-116) *)
  Record ctable := mkCT { ct_energy : list T; ct_pdf : list T; ct_cdf : list T; ct_cos : list (list T) }.
  Record cedc := mkCEDC { ce_in : list T; ce_tables : list ctable; ce_nmu : Z; ce_unit : bool }.
  (** std::sort, as insertion sort (the result is the sorted arrangement) *)
  Fixpoint insert_sorted (x : T) (l : list T) : list T :=
    match l with [] => [x] | y :: r => if x <~ y then x :: l else y :: insert_sorted x r end.
  Definition sort (l : list T) : list T := fold_right insert_sorted [] l.
  (** continuous_energy_discrete_cosines.cpp 120-128: n angles, the next one being [mu] *)
  Fixpoint iso_angles (n : nat) (mu dmu : T) : list T := match n with O => [] | S m => mu :: iso_angles m (mu +~ dmu) dmu end.
  (** continuous_energy_discrete_cosines.cpp 85-169: the entries read, one after another; [k] entries left, reading from [l] (uint32_t) *)
  Fixpoint read_entries (k : nat) (a : ace T) (l nmu : Z) : res (list (T * T * T * list T)) :=
    match k with
    | O => Ok []
    | S m =>
      let! E := xss a l in
      let! p := xss a (l + 1)%Z in
      let p := if (p <~ #0) && (nabs p <~ nlit 1 100000000000000000000) then #0 else p in
      let! c := xss a (l + 2)%Z in
      let! mu := xss_vec a (l + 3)%Z nmu in
      let mu := if is_sorted mu then mu else sort mu in
      let! m0 := frontR mu in
      if m0 <~ -~ #1 then Throw else
      let! mn := backR mu in
      if mn >~ #1 then Throw else
      let! rest := read_entries m a (l + 3 + nmu)%Z nmu in
      Ok ((E, p, c, mu) :: rest)
    end.
  (** continuous_energy_discrete_cosines.cpp 194-210 *)
  Definition fix_pdf (p : T) : res T :=
    if p <~ #0 then (if nabs p <~ nlit 1 1000000000000000 then Ok #0 else Throw) else Ok p.
  (** continuous_energy_discrete_cosines.cpp 70-211 for one incoming energy: [Noe] entries at [l] *)
  Definition make_ctable (a : ace T) (l Noe nmu : Z) : res ctable :=
    let! es := read_entries (Z.to_nat Noe) a l nmu in
    let first := match es with (_, _, c0, _) :: _ => c0 >~ #0 | [] => false end in
    let dmu := #2 /~ nofZ nmu in
    let es := if first then (#0, #0, #0, iso_angles (Z.to_nat nmu) (-~ #1 +~ nlit 1 2 *~ dmu) dmu) :: es else es in
    let energy := map (fun e => fst (fst (fst e))) es in
    let cdf := map (fun e => snd (fst e)) es in
    guard (is_sorted energy) ;;
    let! e0 := frontR energy in
    if e0 <~ #0 then Throw else
    guard (is_sorted cdf) ;;
    let! pdf := mapR fix_pdf (map (fun e => snd (fst (fst e))) es) in
    Ok (mkCT energy pdf cdf (map snd es)).
  Fixpoint make_ctables (a : ace T) (locs noes : list Z) (nmu : Z) : res (list ctable) :=
    match locs, noes with
    | l :: ls, n :: ns => let! t := make_ctable a l n nmu in let! ts := make_ctables a ls ns nmu in Ok (t :: ts)
    | _, _ => Ok []
    end.
  (** continuous_energy_discrete_cosines.cpp 33-212 *)
  Definition make_cedc (a : ace T) (unit_based : bool) : res cedc :=
    guard (nxs a 6 =? 2)%Z ;;
    let S := (jxs a 0 - 1)%Z in
    let! Ne := xss_u32 a S in
    let! energy := xss_vec a (S + 1)%Z Ne in
    guard (is_sorted energy) ;;
    let nmu := wrap32 (nxs a 2 - 1) in
    let i := wrap32 (jxs a 2 - 1) in
    let! locs := xss_vec_u32 a i Ne in
    let! noes := xss_vec_u32 a (wrap32 (i + Ne)) Ne in
    let! tables := make_ctables a locs noes nmu in
    Ok (mkCEDC energy tables nmu unit_based).
  (** continuous_energy_discrete_cosines.cpp 378-410: energy and segment *)
  Definition ct_sample (t : ctable) (xi : T) : res (T * Z) :=
    let! k := lower_bound (ct_cdf t) xi in
    let l := if (k =? 0)%Z then 0%Z else if (k =? sizeZ (ct_cdf t))%Z then (sizeZ (ct_energy t) - 2)%Z else (k - 1)%Z in
    let! p1 := atZ (ct_pdf t) l in
    let! p2 := atZ (ct_pdf t) (l + 1)%Z in
    let! e1 := atZ (ct_energy t) l in
    let! c1 := atZ (ct_cdf t) l in
    if p1 ==~ p2 then Ok (e1 +~ ((xi -~ c1) /~ p1), l)
    else
      let! e2 := atZ (ct_energy t) (l + 1)%Z in
      let m := (p2 -~ p1) /~ (e2 -~ e1) in
      Ok (e1 +~ (#1 /~ m) *~ (nsqrt (nmax #0 (p1 *~ p1 +~ #2 *~ m *~ (xi -~ c1))) -~ p1), l).
  (** continuous_energy_discrete_cosines.cpp 271-300 = 344-373 *)
  Definition ct_cosine (t : ctable) (nmu : Z) (xi : T) (j : Z) : rand T T :=
    rlet! x := draw in
    rlet! k := rlift (trunc_u32 (nofZ nmu *~ x)) in
    rlet! c1 := rlift (atZ (ct_cdf t) j) in
    rlet! c2 := rlift (atZ (ct_cdf t) (j + 1)%Z) in
    let f := (xi -~ c1) /~ (c2 -~ c1) in
    rlet! row1 := rlift (atZ (ct_cos t) j) in
    rlet! row2 := rlift (atZ (ct_cos t) (j + 1)%Z) in
    rlet! mu := smear row1 row2 f k nmu in
    rret (clamp_mu mu).
  Definition ct_min (t : ctable) : res T := frontR (ct_energy t).
  Definition ct_max (t : ctable) : res T := backR (ct_energy t).
  (** continuous_energy_discrete_cosines.cpp 222-303 *)
  Definition cedc_sample_unit (d : cedc) (E : T) : rand T (T * T) :=
    rlet! lf := rlift (select (ce_in d) E) in
    let '(l, f) := lf in
    rlet! u := rlift (limits ct_min ct_max (ce_tables d) l f) in
    rlet! xi := draw in
    rlet! x := draw in
    let '(t, a, b) := if x >~ f then (u_t1 u, u_a1 u, u_b1 u) else (u_t2 u, u_a2 u, u_b2 u) in
    rlet! hj := rlift (ct_sample t xi) in
    let '(h, j) := hj in
    let Eo := unit_base (u_min u) (u_max u) h a b in
    rlet! mu := ct_cosine t (ce_nmu d) xi j in
    rret (mu, Eo).
  (** continuous_energy_discrete_cosines.cpp 305-376 *)
  Definition cedc_sample_nearest (d : cedc) (E : T) : rand T (T * T) :=
    rlet! lf := rlift (select (ce_in d) E) in
    let '(l, f) := lf in
    let l := if f >~ nlit 1 2 then (l + 1)%Z else l in
    rlet! xi := draw in
    rlet! t := rlift (atZ (ce_tables d) l) in
    rlet! hj := rlift (ct_sample t xi) in
    let '(h, j) := hj in
    rlet! e := rlift (atZ (ce_in d) l) in
    let Eo := if h <~ nlit 1 2 *~ e then h *~ (#2 *~ E /~ e -~ #1) else h +~ (E -~ e) in
    rlet! mu := ct_cosine t (ce_nmu d) xi j in
    rret (mu, Eo).
  (** continuous_energy_discrete_cosines.cpp 214-220 *)
  Definition cedc_sample (d : cedc) (E : T) : rand T (T * T) :=
    if negb (ce_unit d) then cedc_sample_nearest d E else cedc_sample_unit d E.

  (** ** STIncoherentInelastic (st_incoherent_inelastic.hpp 87-88) *)
  Inductive ae := AeDiscrete (d : dce) | AeContinuous (d : cedc).
  Record inin := mkInin { ii_xs : tab T; ii_ae : ae }.
  (** st_incoherent_inelastic.cpp 30-65 *)
  Definition make_inin (a : ace T) (unit_based : bool) : res inin :=
    let S := (jxs a 0 - 1)%Z in
    let! Ne := xss_u32 a S in
    let! energy := xss_vec a (S + 1)%Z Ne in
    let! xs := xss_vec a (S + 1 + Ne)%Z Ne in
    let! t := make_tab1 LinLin energy xs in
    if ((nxs a 6 =? 0) || (nxs a 6 =? 1))%Z%bool then let! d := make_dce a in Ok (mkInin t (AeDiscrete d))
    else if (nxs a 6 =? 2)%Z then let! d := make_cedc a unit_based in Ok (mkInin t (AeContinuous d))
    else Throw.
  (** st_incoherent_inelastic.hpp 54-59 *)
  Definition inin_xs (d : inin) (E : T) : res T := tab_eval (ii_xs d) E.
  Definition inin_sample (d : inin) (E : T) : rand T (T * T) :=
    match ii_ae d with AeDiscrete d => dce_sample d E | AeContinuous d => cedc_sample d E end.

  (** ** STThermalScatteringLaw (st_thermal_scattering_law.hpp 120-128) *)
  Record tsl := mkTSL { t_zaid : Z; t_awr : T; t_temp : T; t_has_coh : bool; t_has_inc : bool; t_coh : coh; t_inc : inco; t_inel : inin }.
  (** st_thermal_scattering_law.cpp 29-85 *)
  Definition make_tsl (a : ace T) (unit_based : bool) : res tsl :=
    let! ii := make_inin a unit_based in
    if negb (jxs a 3 =? 0)%Z then
      if (nxs a 4 =? 4)%Z then
        let! c := make_coh a in
        let! i := make_inco a in
        Ok (mkTSL (a_zaid a) (a_awr a) (a_temperature a) true false c i ii)
      else
        let! i := make_inco a in
        let! c := make_coh a in
        Ok (mkTSL (a_zaid a) (a_awr a) (a_temperature a) false true c i ii)
    else
      let! i := make_inco a in
      let! c := make_coh a in
      Ok (mkTSL (a_zaid a) (a_awr a) (a_temperature a) false false c i ii).
  (** st_thermal_scattering_law.hpp 112-117 *)
  Definition tsl_xs (t : tsl) (E : T) : res T :=
    let! ii := inin_xs (t_inel t) E in
    let! ie := inco_xs (t_inc t) E in
    let! ce := coh_xs (t_coh t) E in
    Ok (ii +~ ie +~ ce).
  (** st_thermal_scattering_law.hpp 74, tabulated_1d.hpp max_x *)
  Definition tsl_max_energy (t : tsl) : res T := backR (t_x (ii_xs (t_inel t))).
End Thermal.
Arguments coh : clear implicits. Arguments inco : clear implicits. Arguments dce : clear implicits.
Arguments ctable : clear implicits. Arguments cedc : clear implicits. Arguments tsl : clear implicits. Arguments inin : clear implicits.
