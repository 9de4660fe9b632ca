(** * Models of equiprobable_energy_bins.cpp, general_evaporation.cpp, maxwellian.cpp, evaporation.cpp, watt.hpp/.cpp,
    level_inelastic_scatter.cpp, discrete_photon.hpp, nbody.cpp, uncorrelated.cpp, multiple_distribution.cpp,
    summed_fission_spectrum.cpp. Tabulated1D parameters are functions [T -> res T] (their evaluation is modelled in M_Tab1D).
    Loops [while (!sampled)] run on the list of draws: fuel [S (length ds)] suffices because every turn draws. *)
From Verif Require Import Base M_Interp M_PC M_Grid.
Local Open Scope num_scope.

Section Spectra.
  Context {T : Type} {N : Num T}.

  (** *** EquiprobableEnergyBins *)
  Record ebins := mkEB { eb_energy : list T; eb_sets : list (list T) }.
  (** equiprobable_energy_bins.cpp 71-94 *)
  Definition make_ebins (energy : list T) (sets : list (list T)) : res ebins :=
    guard (is_sorted energy) ;;
    guard (Nat.eqb (length energy) (length sets)) ;;
    guard (forallb is_sorted sets) ;;
    Ok (mkEB energy sets).
  (** equiprobable_energy_bins.cpp 143-148 *)
  Definition sample_bins (xi1 xi2 : T) (bounds : list T) : res T :=
    let! bin := floor_size (nofZ (sizeZ bounds) *~ xi1) in
    let! hi := atZ bounds (bin + 1)%Z in
    let! lo := atZ bounds bin in
    Ok ((hi -~ lo) *~ xi2 +~ lo).
  (** equiprobable_energy_bins.cpp 150-167; the search loop is that of equiprobable_angle_bins.cpp *)
  Definition pdf_bins (E_out : T) (bounds : list T) : res T :=
    let! f := frontR bounds in
    if E_out <~ f then Ok #0 else
    let! b := backR bounds in
    if E_out >~ b then Ok #0 else
    let! bin := find_bin (length bounds - 1) bounds E_out 0%Z in
    let nbins := nofZ (sizeZ bounds - 1)%Z in
    let prob := #1 /~ nbins in
    let! lo := atZ bounds bin in
    let! hi := atZ bounds (bin + 1)%Z in
    Ok (prob /~ (hi -~ lo)).
  (** equiprobable_energy_bins.cpp 96-119; the order of the two calls of rng() in the argument lists is unspecified: first to last here *)
  Definition eb_sample (d : ebins) (E : T) : rand T T :=
    let go (b : list T) : rand T T := rlet! xi1 := draw in rlet! xi2 := draw in rlift (sample_bins xi1 xi2 b) in
    rlet! k := rlift (lower_bound (eb_energy d) E) in
    if (k =? 0)%Z then rlet! b := rlift (frontR (eb_sets d)) in go b
    else if (k =? sizeZ (eb_energy d))%Z then rlet! b := rlift (backR (eb_sets d)) in go b
    else
      let l := (k - 1)%Z in
      rlet! e1 := rlift (atZ (eb_energy d) l) in
      rlet! e2 := rlift (atZ (eb_energy d) (l + 1)%Z) in
      let f := (E -~ e1) /~ (e2 -~ e1) in
      rlet! xi := draw in
      rlet! b := rlift (atZ (eb_sets d) (if xi >~ f then l else (l + 1)%Z)) in
      go b.
  (** equiprobable_energy_bins.cpp 121-141 *)
  Definition eb_pdf (d : ebins) (E E_out : T) : res T :=
    let! k := lower_bound (eb_energy d) E in
    if (k =? 0)%Z then let! b := frontR (eb_sets d) in pdf_bins E_out b
    else if (k =? sizeZ (eb_energy d))%Z then let! b := backR (eb_sets d) in pdf_bins E_out b
    else
      let l := (k - 1)%Z in
      let! e1 := atZ (eb_energy d) l in
      let! e2 := atZ (eb_energy d) (l + 1)%Z in
      let f := (E -~ e1) /~ (e2 -~ e1) in
      let! b1 := atZ (eb_sets d) l in
      let! p1 := pdf_bins E_out b1 in
      let! b2 := atZ (eb_sets d) (l + 1)%Z in
      let! p2 := pdf_bins E_out b2 in
      Ok ((#1 -~ f) *~ p1 +~ f *~ p2).

  (** *** GeneralEvaporation *)
  Record gevap := mkGE { ge_temp : T -> res T; ge_bounds : list T }.
  (** general_evaporation.cpp 76-83 *)
  Definition make_gevap (temp : T -> res T) (bounds : list T) : res gevap :=
    guard (is_sorted bounds) ;; Ok (mkGE temp bounds).
  (** general_evaporation.cpp 85-95 *)
  Definition ge_sample (d : gevap) (E : T) : rand T T :=
    rlet! t := rlift (ge_temp d E) in
    rlet! xi1 := draw in
    rlet! bin := rlift (floor_size (nofZ (sizeZ (ge_bounds d)) *~ xi1)) in
    rlet! xi2 := draw in
    rlet! hi := rlift (atZ (ge_bounds d) (bin + 1)%Z) in
    rlet! lo := rlift (atZ (ge_bounds d) bin) in
    rret (((hi -~ lo) *~ xi2 +~ lo) *~ t).
  (** general_evaporation.cpp 97-118 *)
  Definition ge_pdf (d : gevap) (E E_out : T) : res T :=
    let! t := ge_temp d E in
    let chi := E_out /~ t in
    let! f := frontR (ge_bounds d) in
    if chi <~ f then Ok #0 else
    let! b := backR (ge_bounds d) in
    if chi >~ b then Ok #0 else
    let! bin := find_bin (length (ge_bounds d) - 1) (ge_bounds d) chi 0%Z in
    let! lo := atZ (ge_bounds d) bin in
    let! hi := atZ (ge_bounds d) (bin + 1)%Z in
    let nbins := nofZ (sizeZ (ge_bounds d) - 1)%Z in
    let prob := #1 /~ nbins in
    Ok (prob /~ ((hi -~ lo) *~ t)).

  (** the acceptance test shared by the three rejection loops: maxwellian.cpp 89, evaporation.cpp 87, watt.cpp 127 *)
  Definition accept (U E E_out : T) : bool := (E_out >=~ #0) && (E_out <=~ E -~ U).
  (** a rejection loop: draw a candidate until accepted *)
  Fixpoint reject (fuel : nat) (cand : rand T T) (ok : T -> bool) : rand T T :=
    match fuel with
    | O => fun _ => NoDraw
    | S m => rlet! e := cand in if ok e then rret e else reject m cand ok
    end.

  (** *** Maxwellian *)
  (** maxwellian.cpp 81-87 *)
  Definition mw_cand (t : T) : rand T T :=
    rlet! xi1 := draw in
    rlet! xi2 := draw in
    rlet! xi3 := draw in
    let c := ncos (npi *~ xi3 /~ #2) in
    rret ((-~ t) *~ (nlog xi1 +~ nlog xi2 *~ c *~ c)).
  (** maxwellian.cpp 71-93 *)
  Definition mw_sample (temp : T -> res T) (U E : T) : rand T T := fun ds =>
    (rlet! t := rlift (temp E) in reject (S (length ds)) (mw_cand t) (accept U E)) ds.
  (** maxwellian.cpp 95-103 *)
  Definition mw_pdf (temp : T -> res T) (U E E_out : T) : res T :=
    let du := E -~ U in
    if (E_out <~ #0) || (E_out >~ du) then Ok #0 else
    let! t := temp E in
    let I := npow t (#3 /~ #2) *~ ((nsqrt npi /~ #2) *~ nerf (du /~ t) -~ nsqrt (du /~ t) *~ nexp ((-~ du) /~ t)) in
    Ok ((nsqrt E_out /~ I) *~ nexp ((-~ E_out) /~ t)).

  (** *** Evaporation *)
  (** evaporation.cpp 79-85 *)
  Definition ev_cand (t U E : T) : rand T T :=
    rlet! xi1 := draw in
    rlet! xi2 := draw in
    let w := (E -~ U) /~ t in
    let g := #1 -~ nexp (-~ w) in
    rret ((-~ t) *~ nlog ((#1 -~ g *~ xi1) *~ (#1 -~ g *~ xi2))).
  (** evaporation.cpp 69-91 *)
  Definition ev_sample (temp : T -> res T) (U E : T) : rand T T := fun ds =>
    (rlet! t := rlift (temp E) in reject (S (length ds)) (ev_cand t U E) (accept U E)) ds.
  (** evaporation.cpp 93-100 *)
  Definition ev_pdf (temp : T -> res T) (U E E_out : T) : res T :=
    let du := E -~ U in
    if (E_out <~ #0) || (E_out >~ du) then Ok #0 else
    let! t := temp E in
    let I := t *~ t *~ (#1 -~ nexp ((-~ du) /~ t) *~ (#1 +~ (du /~ t))) in
    Ok ((E_out /~ I) *~ nexp ((-~ E_out) /~ t)).

  (** *** Watt *)
  Record watt := mkWatt { w_a : T -> res T; w_b : T -> res T; w_U : T }.
  (** watt.hpp 67 and 73: the accessors *)
  Definition watt_a (w : watt) : T -> res T := w_b w.
  Definition watt_b (w : watt) : T -> res T := w_a w.
  (** watt.cpp 117-125 *)
  Definition w_cand (a b : T) : rand T T :=
    rlet! xi1 := draw in
    rlet! xi2 := draw in
    rlet! xi3 := draw in
    let c := ncos (npi *~ xi3 /~ #2) in
    let w := (-~ a) *~ (nlog xi1 +~ nlog xi2 *~ c *~ c) in
    rlet! xi4 := draw in
    rret (w +~ nlit 1 4 *~ a *~ a *~ b +~ (#2 *~ xi4 -~ #1) *~ nsqrt (a *~ a *~ b *~ w)).
  (** watt.cpp 104-131 *)
  Definition w_sample (d : watt) (E : T) : rand T T := fun ds =>
    (rlet! a := rlift (w_a d E) in
     rlet! b := rlift (w_b d E) in
     reject (S (length ds)) (w_cand a b) (accept (w_U d) E)) ds.
  (** watt.cpp 133-144 *)
  Definition w_pdf (d : watt) (E E_out : T) : res T :=
    let du := E -~ w_U d in
    if (E_out <~ #0) || (E_out >~ du) then Ok #0 else
    let! a := w_a d E in
    let! b := w_b d E in
    let I := nlit 1 2 *~ nsqrt (npi *~ a *~ a *~ a *~ b /~ #4) *~ nexp (a *~ b /~ #4) in
    let I := I *~ (nerf (nsqrt (du /~ a) -~ nsqrt (a *~ b /~ #4)) +~ nerf (nsqrt (du /~ a) +~ nsqrt (a *~ b /~ #4))) in
    let I := I -~ a *~ nexp ((-~ du) /~ a) *~ nsinh (nsqrt (b *~ du)) in
    Ok ((nexp ((-~ E_out) /~ a) /~ I) *~ nsinh (nsqrt (b *~ E_out))).

  (** *** LevelInelasticScatter *)
  Record level := mkLevel { lv_C1 : T; lv_C2 : T }.
  (** level_inelastic_scatter.cpp 35-45 *)
  Definition make_level (Q AWR : T) : res level :=
    if AWR <=~ #0 then Throw else
    let tmp := AWR /~ (AWR +~ #1) in
    Ok (mkLevel ((AWR +~ #1) *~ nabs Q /~ AWR) (tmp *~ tmp)).
  (** level_inelastic_scatter.cpp 47-50 *)
  Definition lv_sample (d : level) (E : T) : rand T T := rret (lv_C2 d *~ (E -~ lv_C1 d)).

  (** *** DiscretePhoton *)
  Record dphoton := mkDP { dp_lp : Z; dp_A : T; dp_Eg : T }.
  (** discrete_photon.hpp 77-92 *)
  Definition make_dphoton (lp : Z) (E AWR : T) : res dphoton :=
    guard ((lp =? 0) || (lp =? 1) || (lp =? 2))%Z%bool ;;
    if E <=~ #0 then Throw else
    if AWR <=~ #0 then Throw else Ok (mkDP lp AWR E).
  (** discrete_photon.hpp 96-100 *)
  Definition dp_sample (d : dphoton) (E : T) : rand T T :=
    rret (if ((dp_lp d =? 0) || (dp_lp d =? 1))%Z%bool then dp_Eg d else dp_Eg d +~ (dp_A d /~ (dp_A d +~ #1)) *~ E).

  (** *** NBody *)
  Record nbody := mkNB { nb_n : Z; nb_Ap : T; nb_A : T; nb_Q : T }.
  (** nbody.cpp 60-78 *)
  Definition make_nbody (n : Z) (Ap AWR Q : T) : res nbody :=
    guard ((n =? 3) || (n =? 4) || (n =? 5))%Z%bool ;;
    if Ap <=~ #0 then Throw else
    if AWR <=~ #0 then Throw else Ok (mkNB n Ap AWR Q).
  (** nbody.cpp 82 = 119 *)
  Definition nb_Emax (d : nbody) (E : T) : T := ((nb_Ap d -~ #1) /~ nb_Ap d) *~ ((nb_A d /~ (nb_A d +~ #1)) *~ E +~ nb_Q d).
  (** nbody.cpp 107-110 (the order of the last two calls of rng() is unspecified) *)
  Definition nb_maxwell : rand T T :=
    rlet! u := draw in
    let a := npi *~ u /~ #2 in
    rlet! x1 := draw in
    rlet! x2 := draw in
    rret (-~ (nlog x1 +~ nlog x2 *~ ncos a *~ ncos a)).
  (** nbody.cpp 85-99 *)
  Definition nb_y (n : Z) : rand T T :=
    if (n =? 3)%Z then nb_maxwell
    else if (n =? 4)%Z then
      rlet! a := draw in rlet! b := draw in rlet! c := draw in rret (-~ nlog (a *~ b *~ c))
    else if (n =? 5)%Z then
      rlet! a := draw in rlet! b := draw in rlet! c := draw in rlet! d := draw in rlet! e := draw in rlet! f := draw in
      rret ((-~ nlog (a *~ b *~ c *~ d)) -~ nlog e *~ npow (ncos (nlit 1 2 *~ npi *~ f)) #2)
    else rret #0.
  (** nbody.cpp 80-105 *)
  Definition nb_sample (d : nbody) (E : T) : rand T (T * T) :=
    let Emax := nb_Emax d E in
    rlet! x := nb_maxwell in
    rlet! y := nb_y (nb_n d) in
    let E_out := (x /~ (x +~ y)) *~ Emax in
    rlet! u := draw in
    rret (#2 *~ u -~ #1, E_out).
  (** nbody.cpp 117-139 *)
  Definition nb_pdf (d : nbody) (E E_out : T) : T :=
    let Emax := nb_Emax d E in
    let C := if (nb_n d =? 3)%Z then #4 /~ (npi *~ Emax *~ Emax)
             else if (nb_n d =? 4)%Z then #105 /~ (#32 *~ npow Emax (#7 /~ #2))
             else if (nb_n d =? 5)%Z then #256 /~ (#14 *~ npi *~ npow Emax #5)
             else #0 in
    C *~ nsqrt E_out *~ npow (Emax -~ E_out) ((#3 *~ nofZ (nb_n d) /~ #2) -~ #4).

  (** *** interfaces EnergyLaw (energy_law.hpp) and AngleEnergy (angle_energy.hpp) *)
  Record elaw := mkEL { el_sample : T -> rand T T; el_pdf : T -> T -> res (option T) }.
  Record aelaw := mkAE { ae_sample : T -> rand T (T * T); ae_angle_pdf : T -> T -> res (option T); ae_pdf : T -> T -> T -> res (option T) }.

  (** *** Uncorrelated; [None] is a null pointer *)
  Record uncor := mkUC { uc_angle : adist T; uc_energy : elaw }.
  (** uncorrelated.cpp 28-35 *)
  Definition make_uncor (a : adist T) (e : option elaw) : res uncor :=
    match e with None => Throw | Some e => Ok (mkUC a e) end.
  (** uncorrelated.cpp 37-42 *)
  Definition uc_sample (d : uncor) (E : T) : rand T (T * T) :=
    rlet! mu := adist_sample (uc_angle d) E in
    rlet! e := el_sample (uc_energy d) E in
    rret (mu, e).
  (** uncorrelated.cpp 44-46 *)
  Definition uc_angle_pdf (d : uncor) (E mu : T) : res (option T) := let! p := adist_pdf (uc_angle d) E mu in Ok (Some p).
  (** uncorrelated.cpp 48-61 *)
  Definition uc_pdf (d : uncor) (E mu E_out : T) : res (option T) :=
    let! pe := el_pdf (uc_energy d) E E_out in
    match pe with
    | None => Ok None
    | Some p => let! pa := adist_pdf (uc_angle d) E mu in Ok (Some (p *~ pa))
    end.

  (** *** MultipleDistribution *)
  Record multi := mkMD { md_dists : list aelaw; md_probs : list (T -> res T) }.
  Fixpoint all_some {A} (l : list (option A)) : option (list A) :=
    match l with
    | [] => Some []
    | Some a :: t => match all_some t with Some r => Some (a :: r) | None => None end
    | None :: _ => None
    end.
  (** multiple_distribution.cpp 29-55 *)
  Definition make_multi (dists : list (option aelaw)) (probs : list (option (T -> res T))) : res multi :=
    guard (Nat.eqb (length dists) (length probs)) ;;
    guard (negb (Nat.leb (length dists) 1)) ;;
    match all_some dists, all_some probs with
    | Some d, Some p => Ok (mkMD d p)
    | _, _ => Throw
    end.
  (** multiple_distribution.cpp 62-67: distributions left to try *)
  Fixpoint md_loop (ds : list aelaw) (ps : list (T -> res T)) (E xi sum : T) (last : rand T (T * T)) : rand T (T * T) :=
    match ds, ps with
    | d :: ds', p :: ps' =>
        rlet! v := rlift (p E) in
        let sum := sum +~ v in
        if xi <~ sum then ae_sample d E else md_loop ds' ps' E xi sum last
    | [], _ => last
    | _ :: _, [] => fun _ => UB
    end.
  (** multiple_distribution.cpp 57-71 *)
  Definition md_sample (m : multi) (E : T) : rand T (T * T) :=
    rlet! xi := draw in
    md_loop (md_dists m) (md_probs m) E xi #0 (rlet! d := rlift (backR (md_dists m)) in ae_sample d E).
  (** multiple_distribution.cpp 76-84 and 92-100 *)
  Fixpoint md_sum (f : aelaw -> res (option T)) (ds : list aelaw) (ps : list (T -> res T)) (E acc : T) : res (option T) :=
    match ds, ps with
    | d :: ds', p :: ps' =>
        let! o := f d in
        match o with
        | None => Ok None
        | Some v => let! w := p E in md_sum f ds' ps' E (acc +~ w *~ v)
        end
    | [], _ => Ok (Some acc)
    | _ :: _, [] => UB
    end.
  (** multiple_distribution.cpp 73-87 *)
  Definition md_angle_pdf (m : multi) (E mu : T) : res (option T) := md_sum (fun d => ae_angle_pdf d E mu) (md_dists m) (md_probs m) E #0.
  (** multiple_distribution.cpp 89-103 *)
  Definition md_pdf (m : multi) (E mu E_out : T) : res (option T) := md_sum (fun d => ae_pdf d E mu E_out) (md_dists m) (md_probs m) E #0.

  (** *** SummedFissionSpectrum: threshold, cross section and neutron distribution of a reaction *)
  Record freact := mkFR { fr_threshold : T; fr_xs : xsec T; fr_dist : aelaw }.
  Record sumfis := mkSF { sf0 : freact; sf1 : freact; sf2 : freact; sf3 : freact }.
  (** summed_fission_spectrum.cpp 30-48 *)
  Definition make_sumfis (r19 r20 r21 r38 : option freact) : res sumfis :=
    match r19, r20, r21, r38 with
    | Some a, Some b, Some c, Some d => Ok (mkSF a b c d)
    | _, _, _, _ => Throw
    end.
  (** summed_fission_spectrum.cpp 58 (and 59-61) *)
  Definition sf_xs (r : freact) (E : T) (i : Z) : res T := if E >~ fr_threshold r then xs_eval_i (fr_xs r) E i else Ok #0.
  (** summed_fission_spectrum.cpp 50-69 *)
  Definition sf_probs (d : sumfis) (E : T) : res (T * T * T * T) :=
    let! i := get_lower_index (x_grid (fr_xs (sf0 d))) E in
    let! x0 := sf_xs (sf0 d) E i in
    let! x1 := sf_xs (sf1 d) E i in
    let! x2 := sf_xs (sf2 d) E i in
    let! x3 := sf_xs (sf3 d) E i in
    let tot := x0 +~ x1 +~ x2 +~ x3 in
    Ok (x0 /~ tot, x1 /~ tot, x2 /~ tot, x3 /~ tot).
  (** summed_fission_spectrum.cpp 71-90 *)
  Definition sf_sample (d : sumfis) (E : T) : rand T (T * T) :=
    rlet! p := rlift (sf_probs d E) in
    let '(p0, p1, p2, p3) := p in
    rlet! xi := draw in
    if xi <~ p0 then ae_sample (fr_dist (sf0 d)) E
    else if xi <~ p0 +~ p1 then ae_sample (fr_dist (sf1 d)) E
    else if xi <~ p0 +~ p1 +~ p2 then ae_sample (fr_dist (sf2 d)) E
    else ae_sample (fr_dist (sf3 d)) E.
  (** summed_fission_spectrum.cpp 98-130 and 139-171 *)
  Definition sf_chain (f : aelaw -> res (option T)) (d : sumfis) (E : T) : res (option T) :=
    let! p := sf_probs d E in
    let '(p0, p1, p2, p3) := p in
    let term p r := let! o := f (fr_dist r) in match o with Some v => Ok (Some (#0 +~ p *~ v)) | None => Ok None end in
    if p0 >~ #0 then term p0 (sf0 d)
    else if p1 >~ #0 then term p1 (sf1 d)
    else if p2 >~ #0 then term p2 (sf2 d)
    else if p3 >~ #0 then term p3 (sf3 d)
    else Ok (Some #0).
  (** summed_fission_spectrum.cpp 92-131 *)
  Definition sf_angle_pdf (d : sumfis) (E mu : T) : res (option T) := sf_chain (fun l => ae_angle_pdf l E mu) d E.
  (** summed_fission_spectrum.cpp 133-172 *)
  Definition sf_pdf (d : sumfis) (E mu E_out : T) : res (option T) := sf_chain (fun l => ae_pdf l E mu E_out) d E.
End Spectra.
Arguments ebins : clear implicits. Arguments gevap : clear implicits. Arguments watt : clear implicits. Arguments level : clear implicits. Arguments dphoton : clear implicits.
Arguments nbody : clear implicits. Arguments elaw : clear implicits. Arguments aelaw : clear implicits. Arguments uncor : clear implicits. Arguments multi : clear implicits.
Arguments freact : clear implicits. Arguments sumfis : clear implicits.
