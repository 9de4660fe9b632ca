(** * Specification vocabulary for ACE blocks, multiplicities, probability tables and evaluated cross sections *)
From Verif Require Import Base NumR L_SearchR M_Interp M_Grid M_Ace M_Neutron.
Local Open Scope R_scope.

(** the XSS array holds [block] from (zero-based) position [i] on *)
Definition holds (a : ace R) (i : Z) (block : list R) : Prop :=
  exists pre post, a_xss a = pre ++ block ++ post /\ sizeZ pre = i.
(** integers stored as numbers *)
Definition nums (l : list Z) : list R := map IZR l.
(** the ACE manual's layout of a polynomial nu block and of a tabulated function: NR, NBT, INT, NE, energies, values *)
Definition poly_block (coeffs : list R) : list R := [1; IZR (sizeZ coeffs)] ++ coeffs.
Definition tab_block (NBT INT : list Z) (energy y : list R) : list R :=
  [IZR (sizeZ NBT)] ++ nums NBT ++ nums INT ++ [IZR (sizeZ energy)] ++ energy ++ y.
Definition u32 (z : Z) : Prop := (0 <= z < 2 ^ 32)%Z.
(** a probability table block for one incident energy: cdf, total, elastic, fission, capture, heating *)
Definition ptable_block (cdf t e f c h : list R) : list R := cdf ++ t ++ e ++ f ++ c ++ h.
(** linear-linear and log-log interpolation between (e0, lo) and (e1, hi); a table band that is not positive at both ends
    has no log-log interpolant and counts as zero *)
Definition between_values (loglog : bool) (e0 e1 E lo hi : R) : R :=
  if loglog then if Rlt_dec 0 lo then if Rlt_dec 0 hi then exp (ln lo + ln (E / e0) / ln (e1 / e0) * ln (hi / lo)) else 0 else 0
  else lo + (E - e0) / (e1 - e0) * (hi - lo).
(** the band of a discrete cumulative distribution that [xi] falls in *)
Definition in_band (cdf : list R) (xi : R) (j : Z) : Prop :=
  (0 <= j < sizeZ cdf)%Z /\ xi <= getR cdf j /\ forall k, (0 <= k < j)%Z -> getR cdf k < xi.
(** the interpolation law an ACE file means by its ENDF code (1: histogram, 2: linear-linear, 3: linear in ln x, 4: ln y linear in x,
    5: ln y linear in ln x); codes outside 1..5 have no meaning in ENDF, the code falls back to the histogram *)
Definition endf_interp (c : Z) : M_Interp.interpolation :=
  match c with 2%Z => M_Interp.LinLin | 3%Z => M_Interp.LinLog | 4%Z => M_Interp.LogLin | 5%Z => M_Interp.LogLog | _ => M_Interp.Histogram end.
(** [block] is the ACE layout of the multiplicity [f]: LNU = 1 and a polynomial, or LNU = 2 and a table *)
Inductive nu_block : M_Func.func R -> list R -> Prop :=
| nb_poly c : u32 (sizeZ c) -> nu_block (M_Func.FPoly c) (poly_block c)
| nb_tab NBT INT energy y t : length INT = length NBT -> length y = length energy -> Forall u32 NBT -> Forall u32 INT -> (sizeZ NBT < 2 ^ 31)%Z -> u32 (sizeZ energy) ->
    match INT with
    | [] => M_Tab1D.make_tab1 LinLin energy y
    | [c] => M_Tab1D.make_tab1 (endf_interp c) energy y
    | _ => M_Tab1D.make_tab NBT (map endf_interp INT) energy y
    end = Ok t ->
    nu_block (M_Func.FTab t) (2 :: tab_block NBT INT energy y).
(** the XSS array fits in memory *)
Definition fits (a : ace R) : Prop := (sizeZ (a_xss a) < 2 ^ 63)%Z.
(** the value of one partial cross section: [sel] picks the partial of a band, [s] is its smooth cross section (used when the table holds factors) *)
Definition partial_value (u : urr R) (E : R) (k : Z) (bl bh : band R) (sel : band R -> R) (s : R) : R :=
  let v := between_values (u_loglog u) (getR (u_energy u) k) (getR (u_energy u) (k + 1)) E (sel bl) (sel bh) in
  Rmax 0 (if u_factors u then v * s else v).
(** the contribution of one fission chance: [ev] of its cross section, zero if the nuclide lacks it *)
Definition chance_value (n : neutron R) (mt : Z) (ev : xsec R -> res R) (v : R) : Prop :=
    (exists r, neutron_reaction n mt = Ok r /\ ev (rx_xs r) = Ok v) \/ (neutron_has n mt = Ok false /\ v = 0).

(** ** the ACE manual's numbering: JXS(1), JXS(2), ... and NXS(1), NXS(2), ... *)
Definition JXS (a : ace R) (k : nat) : Z := nth (k - 1) (a_jxs a) 0%Z.
Definition NXS (a : ace R) (k : nat) : Z := nth (k - 1) (a_nxs a) 0%Z.
