(** * Models of reaction_base.hpp/.cpp, reaction.hpp/.cpp, delayed_family.cpp, fission.hpp/.cpp, urr_ptables.hpp/.cpp and
    st_neutron.hpp/.cpp *)
From Verif Require Import Base M_Interp M_Tab1D M_Func M_Grid M_Packet M_PC M_Spectra M_Ace.
Local Open Scope num_scope.

Section Neutron.
  Context {T : Type} {N : Num T}.

  (** The secondary distributions are supplied by functions of the ACE object:
      [load ace indx mt q awr cm] stands for reaction_base.cpp 105-125 (load_neutron_distributions, 162-284: the reading
      of the energy laws, their mixture and the change of frame), [absorb mt] for Absorption(mt) (136),
      [load_delayed ace g] for delayed_family.cpp 63-104 (the energy law of family g),
      [load_elastic ace] for AngleDistribution(ace, xss<int>(LAND)) (st_neutron.cpp 88-98).
      Every statement about the constructors below quantifies over all such functions. *)
  Variable load : ace T -> Z -> Z -> T -> T -> bool -> res (aelaw T).
  Variable absorb : Z -> aelaw T.
  Variable load_delayed : ace T -> Z -> res (elaw T).
  Variable load_elastic : ace T -> res (adist T).

  (** reaction_base.hpp 90-95, reaction.hpp 82 *)
  Record reaction := mkReac {
    rx_mt : Z; rx_q : T; rx_awr : T; rx_threshold : T; rx_yield : func T; rx_dist : aelaw T; rx_xs : xsec T }.

  (** static_cast<size_t>(yld) *)
  Definition trunc_size (x : T) : res Z :=
    match nfloor x with
    | None => UB
    | Some z => if ((0 <=? z) && (z <? 2 ^ 64))%Z%bool then Ok z else UB
    end.
  (** reaction_base.cpp 67-91 *)
  Definition read_yield (a : ace T) (y : T) : res (func T) :=
    let yld := nabs y in
    if yld <~ #100 then Ok (FConst yld)
    else let! k := trunc_size yld in
         let! t := read_tab a (DLW a + k - 101)%Z in Ok (FTab t).
  (** reaction.cpp 38-42 and 63-67 *)
  Definition read_reaction_xs (a : ace T) (indx : Z) (g : egrid T) : res (xsec T * T) :=
    let! loca := xss_u32 a (LSIG a + indx)%Z in
    let! x := xs_of_ace_indexed a (SIG a + loca - 1)%Z g in
    let! th := xs_energy x 0 in
    Ok (x, th).
  (** reaction_base.cpp 49-138 and reaction.cpp 34-49 *)
  Definition make_reaction (a : ace T) (indx : Z) (g : egrid T) : res reaction :=
    let! mt := xss_u32 a (MTR a + indx)%Z in
    let! q := xss a (LQR a + indx)%Z in
    let! y := xss a (TYR a + indx)%Z in
    let! yf := read_yield a y in
    let! d := (if nabs y !=~ #0 then load a indx mt q (a_awr a) (y <~ #0) else Ok (absorb mt)) in
    let! xt := read_reaction_xs a indx g in
    Ok (mkReac mt q (a_awr a) (snd xt) yf d (fst xt)).
  (** reaction.cpp 51-74: everything but the cross section and threshold is taken from [r]; the test on line 56 compares
      the copied MT with the MT it was copied from *)
  Definition make_reaction_from (a : ace T) (indx : Z) (g : egrid T) (r : reaction) : res reaction :=
    (if (rx_mt r =? rx_mt r)%Z then Ok tt else Throw) ;;
    let! xt := read_reaction_xs a indx g in
    Ok (mkReac (rx_mt r) (rx_q r) (rx_awr r) (snd xt) (rx_yield r) (rx_dist r) (fst xt)).
  (** reaction_base.hpp 75-80 *)
  Definition reaction_sample (r : reaction) (E : T) : rand T (T * T) :=
    if E <~ rx_threshold r then rret (#0, #0) else ae_sample (rx_dist r) E.

  (** ** Fission *)
  Record nus := mkNus { nu_total : func T; nu_prompt : func T; nu_delayed : func T }.
  Definition in_i32 (z : Z) : bool := ((- 2 ^ 31 <=? z) && (z <? 2 ^ 31))%Z%bool.
  (** fission.cpp 57-89: the blocks found in the file: total, prompt, delayed.  The int32_t sum of lines 76-79 overflows
      outside the int32_t range. *)
  Definition read_nu_blocks (a : ace T) : res (option (func T) * option (func T) * option (func T)) :=
    let! tp :=
      (if (0 <? jxs a 1)%Z then
         let! x := xss a (NU a) in
         if x >~ #0 then
           if (0 <? jxs a 23)%Z then let! p := read_nu a (NU a) in Ok (None, Some p)
           else let! t := read_nu a (NU a) in Ok (Some t, None)
         else
           let! k := xss_i32 a (NU a) in
           if (in_i32 (Z.abs k) && in_i32 (NU a + Z.abs k + 1))%bool then
             let! t := read_nu a (wrap32 (NU a + Z.abs k + 1)) in
             let! p := read_nu a (wrap32 (NU a + 1)) in
             Ok (Some t, Some p)
           else UB
       else Ok (None, None)) in
    let! d := (if (0 <? DNU a)%Z then let! d := read_nu a (DNU a) in Ok (Some d) else Ok None) in
    Ok (fst tp, snd tp, d).
  (** fission.cpp 91-117 *)
  Definition combine_nus (total prompt delayed : option (func T)) : nus :=
    let tot := match total, prompt, delayed with
               | Some t, _, _ => t
               | None, Some p, Some d => FSum p d
               | None, None, Some d => d
               | None, _, None => FConst #0
               end in
    let pr := match prompt with Some p => p | None => tot end in
    let del := match delayed, total, prompt with
               | Some d, _, _ => d
               | None, Some t, Some p => FDiff t p
               | None, _, _ => FConst #0
               end in
    mkNus tot pr del.
  (** fission.cpp 50-54 and 56-123 *)
  Definition make_nus (a : ace T) : res nus :=
    if a_fissile a then let! b := read_nu_blocks a in Ok (combine_nus (fst (fst b)) (snd (fst b)) (snd b))
    else Ok (mkNus (FConst #0) (FConst #0) (FConst #0)).

  (** delayed_family.hpp members; delayed_family.cpp 38-105 *)
  Record family := mkFam { df_decay : T; df_prob : tab T; df_energy : elaw T }.
  Definition make_family (a : ace T) (i g : Z) : res family :=
    let! c := xss a i in
    let! p := read_tab a (i + 1)%Z in
    let! e := load_delayed a g in
    Ok (mkFam (c *~ #100000000) p e).
  (** fission.cpp 131-137 (3 + 2 * (NR + NE) is uint32_t): [n] families remain, [g] is the current one *)
  Fixpoint families_loop (n : nat) (a : ace T) (i g : Z) : res (list family) :=
    match n with
    | O => Ok []
    | S m =>
        let! f := make_family a i g in
        let! NR := xss_u32 a (i + 1)%Z in
        let! NE := xss_u32 a (i + 2 + wrap32 (2 * NR))%Z in
        let! r := families_loop m a (i + wrap32 (3 + 2 * (NR + NE)))%Z (g + 1)%Z in
        Ok (f :: r)
    end.
  (** fission.cpp 126-138 *)
  Definition make_families (a : ace T) : res (list family) :=
    if (0 <? BDD a)%Z then families_loop (Z.to_nat (wrap32 (nxs a 7))) a (BDD a) 1 else Ok [].

  (** fission.hpp 150-161; the prompt spectrum is [f_spectrum] *)
  Record fis := mkFis { f_nus : nus; f18 : option reaction; f19 : option reaction; f20 : option reaction;
                        f21 : option reaction; f38 : option reaction; f_spectrum : aelaw T;
                        f_families : list family; f_mts : list Z }.
  Definition is_fission_mt (mt : Z) : bool := ((mt =? 18) || (mt =? 19) || (mt =? 20) || (mt =? 21) || (mt =? 38))%Z%bool.
  Record slots := mkSlots { s18 : option reaction; s19 : option reaction; s20 : option reaction; s21 : option reaction; s38 : option reaction; s_mts : list Z }.
  Definition no_slots : slots := mkSlots None None None None None [].
  Definition set_slot (s : slots) (mt : Z) (r : reaction) : slots :=
    if (mt =? 18)%Z then mkSlots (Some r) (s19 s) (s20 s) (s21 s) (s38 s) (s_mts s ++ [18%Z])
    else if (mt =? 19)%Z then mkSlots (s18 s) (Some r) (s20 s) (s21 s) (s38 s) (s_mts s ++ [19%Z])
    else if (mt =? 20)%Z then mkSlots (s18 s) (s19 s) (Some r) (s21 s) (s38 s) (s_mts s ++ [20%Z])
    else if (mt =? 21)%Z then mkSlots (s18 s) (s19 s) (s20 s) (Some r) (s38 s) (s_mts s ++ [21%Z])
    else mkSlots (s18 s) (s19 s) (s20 s) (s21 s) (Some r) (s_mts s ++ [38%Z]).
  Definition get_slot (s18 s19 s20 s21 s38 : option reaction) (mt : Z) : option reaction :=
    if (mt =? 18)%Z then s18 else if (mt =? 19)%Z then s19 else if (mt =? 20)%Z then s20
    else if (mt =? 21)%Z then s21 else if (mt =? 38)%Z then s38 else None.
  (** the loop fission.cpp 149-168 (and 217-241); [mk mt indx] builds the reaction *)
  Fixpoint fission_loop (mk : Z -> Z -> res reaction) (n : nat) (a : ace T) (indx : Z) (s : slots) : res slots :=
    match n with
    | O => Ok s
    | S m =>
        let! mt := xss_u32 a (MTR a + indx)%Z in
        let! s' := (if is_fission_mt mt then let! r := mk mt indx in Ok (set_slot s mt r) else Ok s) in
        fission_loop mk m a (indx + 1)%Z s'
    end.
  Definition to_freact (r : reaction) : freact T := mkFR (rx_threshold r) (rx_xs r) (rx_dist r).
  (** fission.cpp 175-187 and 248-260 *)
  Definition prompt_spectrum (s : slots) : res (aelaw T) :=
    match s18 s with
    | Some r => Ok (rx_dist r)
    | None =>
        match s19 s, s20 s, s21 s, s38 s with
        | None, None, None, None => Ok (absorb 18)
        | r19, r20, r21, r38 =>
            let! d := make_sumfis (option_map to_freact r19) (option_map to_freact r20) (option_map to_freact r21) (option_map to_freact r38) in
            Ok (mkAE (sf_sample d) (sf_angle_pdf d) (sf_pdf d))
        end
    end.
  Definition nmt (a : ace T) : nat := Z.to_nat (wrap32 (nxs a 3)).
  (** fission.cpp 37-194 *)
  Definition make_fission (a : ace T) (g : egrid T) : res fis :=
    let! ns := make_nus a in
    if a_fissile a then
      let! fam := make_families a in
      let! s := fission_loop (fun _ i => make_reaction a i g) (nmt a) a 0 no_slots in
      let! ps := prompt_spectrum s in
      Ok (mkFis ns (s18 s) (s19 s) (s20 s) (s21 s) (s38 s) ps fam (s_mts s))
    else Ok (mkFis ns None None None None None (absorb 18) [] []).
  (** fission.hpp 107-120 and 129-147 *)
  Definition fission_slot (f : fis) (mt : Z) : option reaction := get_slot (f18 f) (f19 f) (f20 f) (f21 f) (f38 f) mt.
  Definition fission_has (f : fis) (mt : Z) : bool := match fission_slot f mt with Some _ => true | None => false end.
  Definition fission_reaction (f : fis) (mt : Z) : res reaction :=
    if negb (fission_has f mt) then Throw else match fission_slot f mt with Some r => Ok r | None => UB end.
  (** fission.cpp 196-267: multiplicities and families are shared with [f0]; a fission MT that [f0] lacks dereferences
      a null pointer *)
  Definition make_fission_from (a : ace T) (g : egrid T) (f0 : fis) : res fis :=
    if a_fissile a then
      let! s := fission_loop (fun mt i => match fission_slot f0 mt with
                                          | Some r => make_reaction_from a i g r
                                          | None => UB end) (nmt a) a 0 no_slots in
      let! ps := prompt_spectrum s in
      Ok (mkFis (f_nus f0) (s18 s) (s19 s) (s20 s) (s21 s) (s38 s) ps (f_families f0) (s_mts s))
    else Ok (mkFis (f_nus f0) None None None None None (f_spectrum f0) (f_families f0) []).

  (** ** Probability tables *)
  (** urr_ptables.hpp 60-69 *)
  Record band := mkBand { b_total : T; b_elastic : T; b_fission : T; b_capture : T; b_heating : T }.
  Record ptable := mkPT { pt_cdf : list T; pt_bands : list band }.
  (** urr_ptables.hpp 310-321 (total_ and disappearance_ are not used) *)
  Record urr := mkUrr { u_loglog : bool; u_factors : bool; u_elastic : xsec T; u_capture : xsec T; u_fission : xsec T;
                        u_heating : xsec T; u_inelastic : option (xsec T); u_absorption : option (xsec T);
                        u_energy : list T; u_ptables : list ptable }.
  (** the ipt-loops: one column of Nptables numbers from [indx] on *)
  Definition column (a : ace T) (indx n : Z) : res (list T) := mapR (xss a) (zseq indx (Z.to_nat n)).
  Definition column_nonneg (a : ace T) (indx n : Z) : res (list T) :=
    mapR (fun j => let! v := xss a j in if v <~ #0 then Throw else Ok v) (zseq indx (Z.to_nat n)).
  Fixpoint zip_bands (t e f c h : list T) : list band :=
    match t, e, f, c, h with
    | x1 :: t', x2 :: e', x3 :: f', x4 :: c', x5 :: h' => mkBand x1 x2 x3 x4 x5 :: zip_bands t' e' f' c' h'
    | _, _, _, _, _ => []
    end.
  (** urr_ptables.cpp 84-183: one incident energy *)
  Definition read_ptable (a : ace T) (indx n : Z) : res ptable :=
    let! cdf := column a indx n in
    guard (is_sorted cdf) ;;
    let! c0 := frontR cdf in
    if c0 <=~ #0 then Throw else
    let! cb := backR cdf in
    if nabs (#1 -~ cb) <~ nlit 1 1000000000000000 then
      let! cdf' := setZ cdf (sizeZ cdf - 1)%Z #1 in
      let! t := column_nonneg a (indx + n)%Z n in
      let! e := column_nonneg a (indx + 2 * n)%Z n in
      let! f := column_nonneg a (indx + 3 * n)%Z n in
      let! c := column_nonneg a (indx + 4 * n)%Z n in
      let! h := column a (indx + 5 * n)%Z n in
      Ok (mkPT cdf' (zip_bands t e f c h))
    else Throw.
  (** urr_ptables.cpp 83-184 *)
  Fixpoint read_ptables (k : nat) (a : ace T) (indx n : Z) : res (list ptable) :=
    match k with
    | O => Ok []
    | S m => let! p := read_ptable a indx n in
             let! r := read_ptables m a (indx + 6 * n)%Z n in
             Ok (p :: r)
    end.
  (** urr_ptables.cpp 196-210 and 215-229: the first reaction with that MT *)
  Definition competition (flag : Z) (rs : list reaction) : res (option (xsec T)) :=
    if (0 <? flag)%Z then
      match find (fun r => (rx_mt r =? flag)%Z) rs with Some r => Ok (Some (rx_xs r)) | None => Throw end
    else Ok None.
  (** urr_ptables.cpp 38-243 *)
  Definition make_urr (a : ace T) (elastic capture fission heating : xsec T) (rs : list reaction) : res urr :=
    if (jxs a 22 =? 0)%Z then Ok (mkUrr false false elastic capture fission heating None None [] []) else
    let L := LUNR a in
    let! Nenergy := xss_u32 a L in
    let! Nptables := xss_u32 a (L + 1)%Z in
    let! interp := xss_u32 a (L + 2)%Z in
    let! inelastic_flag := xss_i32 a (L + 3)%Z in
    let! absorption_flag := xss_i32 a (L + 4)%Z in
    let! factors_flag := xss_i32 a (L + 5)%Z in
    let! energy := xss_vec a (L + 6)%Z Nenergy in
    let! pts := read_ptables (Z.to_nat Nenergy) a (L + 6 + Nenergy)%Z Nptables in
    let factors := (factors_flag =? 1)%Z in
    (if ((interp =? 2) || (interp =? 5))%Z%bool then Ok tt else Throw) ;;
    let! inel := competition inelastic_flag rs in
    let! abso := competition absorption_flag rs in
    Ok (mkUrr (interp =? 5)%Z factors elastic capture fission heating inel abso energy pts).

  (** urr_ptables.hpp 92, 250-270 *)
  Definition urr_valid (u : urr) : bool := (2 <? sizeZ (u_energy u))%Z.
  Definition urr_in_range (u : urr) (E : T) : res bool :=
    if (sizeZ (u_energy u) <? 2)%Z then Ok false else
    let! mn := frontR (u_energy u) in
    let! mx := backR (u_energy u) in
    Ok ((mn <=~ E) && (E <=~ mx))%bool.
  (** urr_ptables.hpp 113-134 *)
  Definition urr_bracket (u : urr) (E : T) : res (Z * T) :=
    let! k := lower_bound (u_energy u) E in
    let! ek := atZ (u_energy u) k in
    if E ==~ ek then
      if (k =? sizeZ (u_energy u) - 1)%Z then Ok ((k - 1)%Z, #1) else Ok (k, #0)
    else
      let i := (k - 1)%Z in
      let! e0 := atZ (u_energy u) i in
      let! e1 := atZ (u_energy u) (i + 1)%Z in
      Ok (i, if u_loglog u then nlog (E /~ e0) /~ nlog (e1 /~ e0) else (E -~ e0) /~ (e1 -~ e0)).
  (** urr_ptables.hpp 141-148 *)
  Fixpoint band_index (cdf : list T) (xi : T) : Z :=
    match cdf with
    | [] => 0%Z
    | c :: t => if c >=~ xi then 0%Z else (1 + band_index t xi)%Z
    end.
  (** urr_ptables.hpp 156-193, for each of elastic, capture, fission, heating *)
  Definition urr_interp (u : urr) (f lo hi : T) : T :=
    if u_loglog u then
      if ((lo >~ #0) && (hi >~ #0))%bool then nexp (nlog lo +~ f *~ nlog (hi /~ lo)) else #0
    else lo +~ f *~ (hi -~ lo).
  (** urr_ptables.hpp 196-207 *)
  Definition urr_scale (u : urr) (x : xsec T) (E : T) (i : Z) (v : T) : res T :=
    if u_factors u then let! s := xs_eval_i x E i in Ok (v *~ s) else Ok v.
  Definition no_negative (v : T) : T := if v <~ #0 then #0 else v.
  Definition opt_eval (x : option (xsec T)) (E : T) (i : Z) : res T :=
    match x with Some x => xs_eval_i x E i | None => Ok #0 end.
  (** urr_ptables.hpp 103-227 *)
  Definition urr_evaluate (u : urr) (E : T) (i : Z) (xi : T) : res (option (packet T)) :=
    if negb (urr_valid u) then Ok None else
    let! mn := frontR (u_energy u) in
    let! mx := backR (u_energy u) in
    if ((E <~ mn) || (E >~ mx))%bool then Ok None else
    let! b := urr_bracket u E in
    let! lo := atZ (u_ptables u) (fst b) in
    let! hi := atZ (u_ptables u) (fst b + 1)%Z in
    let! bl := atZ (pt_bands lo) (band_index (pt_cdf lo) xi) in
    let! bh := atZ (pt_bands hi) (band_index (pt_cdf hi) xi) in
    let f := snd b in
    let! el := urr_scale u (u_elastic u) E i (urr_interp u f (b_elastic bl) (b_elastic bh)) in
    let! ca := urr_scale u (u_capture u) E i (urr_interp u f (b_capture bl) (b_capture bh)) in
    let! fi := urr_scale u (u_fission u) E i (urr_interp u f (b_fission bl) (b_fission bh)) in
    let! he := urr_scale u (u_heating u) E i (urr_interp u f (b_heating bl) (b_heating bh)) in
    let el := no_negative el in let ca := no_negative ca in let fi := no_negative fi in let he := no_negative he in
    let! inel := opt_eval (u_inelastic u) E i in
    let! other := opt_eval (u_absorption u) E i in
    let abso := ca +~ fi +~ other in
    Ok (Some (mkPkt (el +~ inel +~ abso) el inel abso fi ca he)).
  (** urr_ptables.hpp 236-245 *)
  Definition urr_evaluate' (u : urr) (E xi : T) : res (option (packet T)) :=
    if negb (urr_valid u) then Ok None else
    let! i := get_lower_index (x_grid (u_elastic u)) E in urr_evaluate u E i xi.

  (** ** STNeutron: st_neutron.hpp 218-237 *)
  Record neutron := mkNeutron {
    n_temperature : T; n_fissile : bool; n_grid : egrid T;
    n_total : xsec T; n_disappearance : xsec T; n_elastic_xs : xsec T; n_heating : xsec T; n_fission_xs : xsec T; n_photon : xsec T;
    n_elastic : adist T; n_fission : fis; n_urr : urr;
    n_mts : list Z; n_indices : list Z; n_reactions : list reaction }.

  (** the loop st_neutron.cpp 77-85 (and 181-191): MT list, index array, reactions; [mk mt indx] builds the reaction and
      [reaction_indices_[MT]] is a write into std::array<int32_t, 892> *)
  Fixpoint reaction_loop (mk : Z -> Z -> res reaction) (n : nat) (a : ace T) (indx : Z) (mts idx : list Z) (rs : list reaction)
    : res (list Z * list Z * list reaction) :=
    match n with
    | O => Ok (mts, idx, rs)
    | S m =>
        let! mt := xss_u32 a (MTR a + indx)%Z in
        if is_fission_mt mt then reaction_loop mk m a (indx + 1)%Z mts idx rs
        else
          let! r := mk mt indx in
          let! idx' := setZ idx mt (sizeZ rs) in
          reaction_loop mk m a (indx + 1)%Z (mts ++ [mt]) idx' (rs ++ [r])
    end.
  (** std::sort on uint32_t *)
  Fixpoint insert_sorted (x : Z) (l : list Z) : list Z :=
    match l with [] => [x] | y :: t => if (x <=? y)%Z then x :: y :: t else y :: insert_sorted x t end.
  Definition sort_mts (l : list Z) : list Z := fold_right insert_sorted [] l.

  (** st_neutron.hpp 131-137; the array access is guarded by mt > 891 *)
  Definition has_reaction (f : fis) (idx : list Z) (mt : Z) : res bool :=
    if is_fission_mt mt then Ok (fission_has f mt)
    else if (891 <? mt)%Z then Ok false
    else let! k := atZ idx mt in Ok (negb (k <? 0)%Z).
  (** st_neutron.hpp 143-156 *)
  Definition get_reaction (f : fis) (idx : list Z) (rs : list reaction) (mt : Z) : res reaction :=
    let! h := has_reaction f idx mt in
    if negb h then Throw
    else if is_fission_mt mt then fission_reaction f mt
    else let! k := atZ idx mt in atZ rs k.

  (** st_neutron.cpp 247-270: the four min-steps *)
  Definition lowest (o : option reaction) (k : Z) : Z :=
    match o with Some r => if (x_index (rx_xs r) <? k)%Z then x_index (rx_xs r) else k | None => k end.
  Definition add_at (o : option reaction) (i : Z) (v : T) : res T :=
    match o with Some r => let! s := xs_at (rx_xs r) i in Ok (v +~ s) | None => Ok v end.
  (** st_neutron.cpp 275-291: one entry *)
  Definition fission_sum_at (f : fis) (i : Z) : res T :=
    let! v := add_at (f19 f) i #0 in
    let! v := add_at (f20 f) i v in
    let! v := add_at (f21 f) i v in
    add_at (f38 f) i v.
  (** st_neutron.cpp 237-294 *)
  Definition compute_fission_xs (fissile : bool) (f : fis) (g : egrid T) : res (xsec T) :=
    if negb fissile then make_xs_single #0 g else
    match f18 f with
    | Some r => Ok (rx_xs r)
    | None =>
        let n := sizeZ (g_vals g) in
        let lo := lowest (f38 f) (lowest (f21 f) (lowest (f20 f) (lowest (f19 f) n))) in
        let! v := mapR (fission_sum_at f) (zseq lo (Z.to_nat (n - lo))) in
        make_xs v g lo
    end.

  (** the parts common to both constructors: st_neutron.cpp 48-69 / 152-173 *)
  Definition read_main_xs (a : ace T) (g : egrid T) : res (xsec T * xsec T * xsec T * xsec T * xsec T) :=
    let NE := wrap32 (nxs a 2) in
    let! tot := xs_of_ace a (ESZ a + NE)%Z g false in
    let! dis := xs_of_ace a (ESZ a + wrap32 (2 * NE))%Z g false in
    let! ela := xs_of_ace a (ESZ a + wrap32 (3 * NE))%Z g false in
    let! hea := xs_of_ace a (ESZ a + wrap32 (4 * NE))%Z g true in
    let! pho := (if (jxs a 11 =? 0)%Z then make_xs_single #0 g else xs_of_ace a (GPD a) g false) in
    Ok (tot, dis, ela, hea, pho).
  (** 108-131 / 211-234 *)
  Definition finish (a : ace T) (g : egrid T) (temp : T) (fissile : bool) (xs : xsec T * xsec T * xsec T * xsec T * xsec T) (el : adist T) (f : fis)
      (mts idx : list Z) (rs : list reaction) : res neutron :=
    let '(tot, dis, ela, hea, pho) := xs in
    let mts := sort_mts (mts ++ f_mts f) in
    let! fx := compute_fission_xs fissile f g in
    let! h := has_reaction f idx 102 in
    let! cx := (if h then let! r := get_reaction f idx rs 102 in Ok (rx_xs r) else make_xs_single #0 g) in
    let! u := make_urr a ela cx fx hea rs in
    Ok (mkNeutron temp fissile g tot dis ela hea fx pho el f u mts idx rs).
  Definition no_indices : list Z := repeat (-1)%Z 892.
  (** st_neutron.cpp 30-132 *)
  Definition make_neutron (NBINS : nat) (a : ace T) : res neutron :=
    let! g := grid_of_ace a NBINS in
    let! xs := read_main_xs a g in
    let! l := reaction_loop (fun _ i => make_reaction a i g) (nmt a) a 0 [] no_indices [] in
    let '(mts, idx, rs) := l in
    let! el := load_elastic a in
    let! f := make_fission a g in
    finish a g (a_temperature a) (a_fissile a) xs el f mts idx rs.
  (** st_neutron.cpp 134-235: mt_list_ starts as NMT zeros (line 179); a MT that [n0] lacks has index -1 and MT > 891 is
      outside the array *)
  Definition make_neutron_from (NBINS : nat) (a : ace T) (n0 : neutron) : res neutron :=
    let! g := grid_of_ace a NBINS in
    let! xs := read_main_xs a g in
    let! l := reaction_loop (fun mt i => let! k := atZ (n_indices n0) mt in
                                         let! r := atZ (n_reactions n0) k in make_reaction_from a i g r)
                            (nmt a) a 0 (repeat 0%Z (nmt a)) no_indices [] in
    let '(mts, idx, rs) := l in
    let! f := make_fission_from a g (n_fission n0) in
    finish a g (a_temperature a) (n_fissile n0) xs (n_elastic n0) f mts idx rs.

  (** st_neutron.hpp 124-156 on an object *)
  Definition neutron_has (n : neutron) (mt : Z) : res bool := has_reaction (n_fission n) (n_indices n) mt.
  Definition neutron_reaction (n : neutron) (mt : Z) : res reaction := get_reaction (n_fission n) (n_indices n) (n_reactions n) mt.
  (** st_neutron.hpp 188-206 *)
  Definition neutron_xs_i (n : neutron) (E : T) (i : Z) : res (packet T) :=
    let! tot := xs_eval_i (n_total n) E i in
    let! ela := xs_eval_i (n_elastic_xs n) E i in
    let! fi := xs_eval_i (n_fission_xs n) E i in
    let! dis := xs_eval_i (n_disappearance n) E i in
    let abso := dis +~ fi in
    let! hea := xs_eval_i (n_heating n) E i in
    let inel := tot -~ ela -~ abso in
    let inel := if inel <~ #0 then #0 else inel in
    let! h := neutron_has n 102 in
    let! cap := (if h then let! r := neutron_reaction n 102 in xs_eval_i (rx_xs r) E i else Ok #0) in
    Ok (mkPkt tot ela inel abso fi cap hea).
  (** st_neutron.hpp 212-215 *)
  Definition neutron_xs (n : neutron) (E : T) : res (packet T) :=
    let! i := get_lower_index (n_grid n) E in neutron_xs_i n E i.
End Neutron.
Arguments reaction : clear implicits. Arguments nus : clear implicits. Arguments family : clear implicits. Arguments fis : clear implicits. Arguments slots : clear implicits.
Arguments band : clear implicits. Arguments ptable : clear implicits. Arguments urr : clear implicits. Arguments neutron : clear implicits.
