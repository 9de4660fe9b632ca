(** * Models of src/vector.hpp, include/PapillonNDL/frame.hpp and the kinematics of src/elastic.cpp *)
From Verif Require Import Base.
Local Open Scope num_scope.

Section Kin.
  Context {T : Type} {N : Num T}.
  (** vector.hpp 32-33 *)
  Record vec := mkVec { vx : T; vy : T; vz : T }.
  (** vector.hpp 41-55 *)
  Definition vadd (u v : vec) := mkVec (vx u +~ vx v) (vy u +~ vy v) (vz u +~ vz v).
  Definition vsub (u v : vec) := mkVec (vx u -~ vx v) (vy u -~ vy v) (vz u -~ vz v).
  Definition vmul (u : vec) (c : T) := mkVec (vx u *~ c) (vy u *~ c) (vz u *~ c).
  Definition vdiv (u : vec) (c : T) := mkVec (vx u /~ c) (vy u /~ c) (vz u /~ c).
  Definition vdot (u v : vec) : T := vx u *~ vx v +~ vy u *~ vy v +~ vz u *~ vz v.
  Definition vmag (u : vec) : T := nsqrt (vx u *~ vx u +~ vy u *~ vy u +~ vz u *~ vz u).

  Definition clamp (lo hi a : T) : T := if a <~ lo then lo else if a >~ hi then hi else a.
  (** vector.hpp 57-88 *)
  Definition rotate (u : vec) (mu0 phi0 : T) : vec :=
    let mu := clamp (-~ #1) #1 mu0 in
    let phi := clamp #0 (#2 *~ npi) phi0 in
    let '(mkVec x y z) := u in
    let c := ncos phi in
    let s := nsin phi in
    let C := nsqrt (#1 -~ mu *~ mu) in
    if nabs (#1 -~ z *~ z) >~ nlit 1 10000000000 then
      let denom := nsqrt (#1 -~ z *~ z) in
      mkVec (x *~ mu +~ C *~ (c *~ x *~ z -~ s *~ y) /~ denom)
            (y *~ mu +~ C *~ (c *~ y *~ z +~ s *~ x) /~ denom)
            (z *~ mu -~ c *~ C *~ denom)
    else
      let denom := nsqrt (#1 -~ y *~ y) in
      mkVec (x *~ mu +~ C *~ (c *~ x *~ y +~ s *~ z) /~ denom)
            (y *~ mu -~ c *~ C *~ denom)
            (z *~ mu +~ C *~ (c *~ y *~ z -~ s *~ x) /~ denom).

  (** frame.hpp 63-72: returns (mu, Eout) after the call *)
  Definition cm_to_lab (Ein A mu Eout : T) : T * T :=
    let Eout_lab := Eout +~ (Ein +~ #2 *~ mu *~ (A +~ #1) *~ nsqrt (Ein *~ Eout)) /~ npow (A +~ #1) #2 in
    (mu *~ nsqrt (Eout /~ Eout_lab) +~ (#1 /~ (A +~ #1)) *~ nsqrt (Ein /~ Eout_lab), Eout_lab).
  (** frame.hpp 170-179 *)
  Definition lab_to_cm (Ein A mu Eout : T) : T * T :=
    let C := Ein +~ #2 *~ (A +~ #1) *~ nsqrt (Ein *~ Eout) *~ (mu -~ (#1 /~ (A +~ #1)) *~ nsqrt (Ein /~ Eout)) in
    let Eout_cm := Eout -~ (C /~ ((A +~ #1) *~ (A +~ #1))) in
    (nsqrt (Eout /~ Eout_cm) *~ (mu -~ (#1 /~ (A +~ #1)) *~ nsqrt (Ein /~ Eout)), Eout_cm).
  (** frame.hpp 206-207 *)
  Definition cm_gamma (Ein A Q : T) : T :=
    let Ec := A *~ Ein /~ (A +~ #1) in nsqrt ((#1 /~ (A *~ A)) *~ (Ec /~ (Ec +~ Q))).
  (** frame.hpp 201-250 *)
  Definition lab_to_cm_angle (Ein A Q mu : T) : option T * option T :=
    let g := cm_gamma Ein A Q in
    let mu_sqr := mu *~ mu in
    let n := (#1 -~ mu_sqr) /~ mu_sqr in
    let a := #1 +~ n in
    let b := #2 *~ g *~ n in
    let c := n *~ g *~ g -~ #1 in
    let b2_4ac := b *~ b -~ #4 *~ a *~ c in
    if b2_4ac <~ #0 then (None, None)
    else if mu ==~ #0 then (Some (-~ g), None)
    else if b2_4ac ==~ #0 then
      let a1 := -~ #2 *~ c /~ b in
      if (-~ #1 <=~ a1) || (a1 <=~ #1) then (Some a1, None) else (None, None)
    else
      let a1 := (-~ b +~ nsqrt b2_4ac) /~ (#2 *~ a) in
      let a2 := #2 *~ c /~ (-~ b +~ nsqrt b2_4ac) in
      (if (-~ #1 <=~ a1) || (a1 <=~ #1) then Some a1 else None,
       if (-~ #1 <=~ a2) || (a2 <=~ #1) then Some a2 else None).
  (** frame.hpp 95-101 *)
  Definition angle_jacobian (Ein A mu Eout : T) : T :=
    let C := Ein +~ #2 *~ (A +~ #1) *~ nsqrt (Ein *~ Eout) *~ (mu -~ (#1 /~ (A +~ #1)) *~ nsqrt (Ein /~ Eout)) in
    let Eout_cm := Eout -~ (C /~ ((A +~ #1) *~ (A +~ #1))) in
    nsqrt (Eout /~ Eout_cm) /~ (#1 -~ (mu /~ (A +~ #1)) *~ nsqrt (Ein /~ Eout)).
  (** frame.hpp 131-142 *)
  Definition angle_jacobian_q (Ein A Q mu mu_cm : T) : T :=
    let g := cm_gamma Ein A Q in
    let numerator := npow (g +~ mu_cm) #2 *~ nsqrt (#1 -~ (mu_cm *~ mu_cm)) in
    let denominator := mu *~ mu *~ (#1 +~ g *~ mu_cm) *~ nsqrt (#1 -~ mu *~ mu) in
    numerator /~ denominator.
  (** frame.hpp 151-153 *)
  Definition jacobian (Eout Eout_cm : T) : T := nsqrt (Eout /~ Eout_cm).

  (** elastic.cpp 66-111 with the sampled quantities (target velocity, CM cosine, azimuth) given *)
  Definition elastic_out (E_in awr : T) (v_t : vec) (mu_cm phi : T) : T * T :=
    let u_n := mkVec #0 #0 #1 in
    let v_n := vmul u_n (nsqrt E_in) in
    let v_cm := vdiv (vadd v_n (vmul v_t awr)) (awr +~ #1) in
    let V_n := vsub v_n v_cm in
    let S_n := vmag V_n in
    let U_n := vdiv V_n S_n in
    let V_n_out := vmul (rotate U_n mu_cm phi) S_n in
    let v_n_out := vadd V_n_out v_cm in
    let s_n_out := vmag v_n_out in
    let u_n_out := vdiv v_n_out s_n_out in
    (vdot u_n u_n_out, s_n_out *~ s_n_out).

  (** cm_distribution.cpp 33-40; the wrapped distribution is an arbitrary sampler *)
  Definition cm_sample (sample : T -> rand T (T * T)) (awr E_in : T) : rand T (T * T) :=
    rlet! (mu, Eout) := sample E_in in rret (cm_to_lab E_in awr mu Eout).
  (** cm_distribution.cpp 42-76 *)
  Definition cm_angle_pdf (angle_pdf : T -> T -> option T) (awr q E_in mu : T) : option T :=
    let '(w1, w2) := lab_to_cm_angle E_in awr q mu in
    let part w := match w with
                  | Some mu_cm => match angle_pdf E_in mu_cm with
                                  | Some p => p *~ angle_jacobian_q E_in awr q mu mu_cm
                                  | None => #0 end
                  | None => #0 end in
    Some (part w1 +~ part w2).
  (** cm_distribution.cpp 78-94 *)
  Definition cm_pdf (pdf : T -> T -> T -> option T) (awr E_in mu E_out : T) : option T :=
    let '(mu_cm, Eout_cm) := lab_to_cm E_in awr mu E_out in
    match pdf E_in mu_cm Eout_cm with
    | Some p => Some (p *~ jacobian E_out Eout_cm)
    | None => None
    end.

  (** elastic.hpp 157-163; the angle distribution and the broadener are arbitrary samplers *)
  Record elastic_obj := mkElastic {
    e_angle : T -> rand T T; e_awr : T; e_kT : T; e_use_tar : bool; e_tar : T;
    e_brd : T -> T -> T -> rand T vec }.
  (** constants.hpp: K_TO_EV * EV_TO_MEV, MEV_TO_EV * EV_TO_K *)
  Definition K_to_MeV (t : T) : T := t *~ (#1 /~ nlit 1160451812 100000) *~ nlit 1 1000000.
  (** elastic.cpp 33-62; a null broadener is [None] *)
  Definition make_elastic (brd : option (T -> T -> T -> rand T vec)) (angle : T -> rand T T) (awr temperature : T)
      (use_tar : bool) (tar : T) : res elastic_obj :=
    let kT := K_to_MeV temperature in
    if awr <=~ #0 then Throw else
    if kT <~ #0 then Throw else
    if tar <~ #0 then Throw else
    match brd with
    | None => Throw
    | Some b => Ok (mkElastic angle awr kT use_tar tar b)
    end.
  (** the setters: the object after the call and whether the call threw *)
  (** elastic.cpp 114-122 *)
  Definition set_brd (e : elastic_obj) (b : option (T -> T -> T -> rand T vec)) : elastic_obj * bool :=
    match b with
    | None => (e, true)
    | Some b => (mkElastic (e_angle e) (e_awr e) (e_kT e) (e_use_tar e) (e_tar e) b, false)
    end.
  (** elastic.cpp 126-128 *)
  Definition set_temperature (e : elastic_obj) (t : T) : elastic_obj * bool :=
    (mkElastic (e_angle e) (e_awr e) (K_to_MeV t) (e_use_tar e) (e_tar e) (e_brd e), false).
  (** elastic.cpp 124 *)
  Definition elastic_temperature (e : elastic_obj) : T := e_kT e *~ nlit 1000000 1 *~ nlit 1160451812 100000.
  (** elastic.hpp 134 *)
  Definition set_use_tar (e : elastic_obj) (u : bool) : elastic_obj * bool :=
    (mkElastic (e_angle e) (e_awr e) (e_kT e) u (e_tar e) (e_brd e), false).
  (** elastic.cpp 130-138: assigns before it validates *)
  Definition set_tar_threshold (e : elastic_obj) (t : T) : elastic_obj * bool :=
    (mkElastic (e_angle e) (e_awr e) (e_kT e) (e_use_tar e) t (e_brd e), t <~ #0).
  (** elastic.cpp 64-112 *)
  Definition elastic_sample (e : elastic_obj) (E_in : T) : rand T (T * T) :=
    let TAR := e_use_tar e && (E_in >=~ e_tar e *~ e_kT e) in
    rlet! v_t := (if TAR then rret (mkVec #0 #0 #0) else e_brd e E_in (e_kT e) (e_awr e)) in
    rlet! mu_cm := e_angle e E_in in
    rlet! xi := draw in
    rret (elastic_out E_in (e_awr e) v_t mu_cm (#2 *~ npi *~ xi)).

  (** elastic_svt.cpp 42-58: one pass of the rejection loop returns (x_sqrd, mu) if accepted *)
  Fixpoint svt_loop (fuel : nat) (y : T) : rand T (T * T) :=
    match fuel with
    | O => fun _ => NoDraw
    | S f =>
      let P_C49 := #2 /~ (nsqrt npi *~ y +~ #2) in
      rlet! xi := draw in
      rlet! x_sqrd :=
        (if xi <~ P_C49 then
           rlet! a := draw in rlet! b := draw in rret (-~ nlog (a *~ b))
         else
           rlet! a := draw in
           let c := ncos (npi /~ #2 *~ a) in
           rlet! b := draw in rlet! d := draw in rret (-~ nlog b -~ nlog d *~ c *~ c)) in
      let x := nsqrt x_sqrd in
      rlet! m := draw in
      let mu := #2 *~ m -~ #1 in
      let P_accept := nsqrt (y *~ y +~ x_sqrd -~ #2 *~ y *~ x *~ mu) /~ (x +~ y) in
      rlet! r := draw in
      if r <~ P_accept then rret (x_sqrd, mu) else svt_loop f y
    end.
  (** elastic_svt.cpp 32-69; each pass draws at least five numbers, so the draw list bounds the passes *)
  Definition svt_sample (Ein kT awr : T) : rand T vec := fun ds =>
    (let y := nsqrt (awr *~ Ein /~ kT) in
     rlet! (x_sqrd, mu) := svt_loop (S (length ds)) y in
     let s_t := nsqrt (x_sqrd *~ kT /~ awr) in
     rlet! xi := draw in
     rret (vmul (rotate (mkVec #0 #0 #1) mu (#2 *~ npi *~ xi)) s_t)) ds.
End Kin.
Arguments vec : clear implicits.
Arguments elastic_obj : clear implicits.
