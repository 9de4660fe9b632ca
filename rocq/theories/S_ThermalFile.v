(** * Specification vocabulary for thermal scattering files (C99): the ACE format's thermal blocks.
    JXS(1) inelastic energies and cross sections, JXS(3) inelastic outgoing distributions, JXS(4) elastic energies and cross sections
    (or Bragg edges and cumulated structure factors), JXS(6) elastic cosines; NXS(3), NXS(4), NXS(6) dimensions, NXS(5) = 4 coherent
    elastic, NXS(7) secondary energy mode.  All one-based; [jxs a k], [nxs a k] are zero-based. *)
From Coq Require Import Reals List Permutation.
From Verif Require Import Base NumR L_SearchR M_Ace M_Thermal S_Neutron.
Import ListNotations.
Local Open Scope R_scope.

(** the number of points, then two columns *)
Definition counted (x y : list R) : list R := IZR (sizeZ x) :: x ++ y.
(** cosines in ascending order in [-1,1] *)
Definition ascending_cosines (n : Z) (row : list R) : Prop := sizeZ row = n /\ increasing row /\ Forall (fun m => -1 <= m <= 1) row.
(** a discrete outgoing line: its energy, then its cosines *)
Definition line_block (l : R * list R) : list R := fst l :: snd l.
Definition line_ok (nmu : Z) (l : R * list R) : Prop := 0 < fst l /\ sizeZ (snd l) = nmu /\ Forall (fun m => -1 <= m <= 1) (snd l).
(** one line after another, one incident energy after another *)
Definition lines_block (rows : list (list (R * list R))) : list R := concat (map (fun row => concat (map line_block row)) rows).

(** an entry of a continuous table: outgoing energy, density, cumulated probability, cosines *)
Record entry := mkEntry { en_E : R; en_pdf : R; en_cdf : R; en_mu : list R }.
Definition entry_block (e : entry) : list R := [en_E e; en_pdf e; en_cdf e] ++ en_mu e.
Definition entries_block (es : list entry) : list R := concat (map entry_block es).
(** densities below zero by round-off (less than 1e-15) are tolerated *)
Record table_ok (nmu : Z) (es : list entry) : Prop := {
  to_some : es <> [];
  to_energy : increasing (map en_E es); to_first : Forall (fun e => 0 <= en_E e) es;
  to_cdf : increasing (map en_cdf es);
  to_pdf : Forall (fun e => - / 1000000000000000 < en_pdf e) es;
  to_cos : Forall (fun e => sizeZ (en_mu e) = nmu /\ Forall (fun m => -1 <= m <= 1) (en_mu e)) es }.
(** how an entry is kept: negative round-off is zero, cosines are put in ascending order *)
Definition cleaned (e e' : entry) : Prop :=
  en_E e' = en_E e /\ en_pdf e' = Rmax 0 (en_pdf e) /\ en_cdf e' = en_cdf e /\ Permutation (en_mu e) (en_mu e') /\ increasing (en_mu e').
(** the point at zero energy, with the centres of [n] equal cosine bins, that completes a table whose first cumulated probability is positive *)
Definition zero_entry (nmu : Z) : entry :=
  mkEntry 0 0 0 (map (fun k => -1 + (INR k + 1 / 2) * (2 / IZR nmu)) (seq 0 (Z.to_nat nmu))).
Definition first_cdf (es : list entry) : R := match es with e :: _ => en_cdf e | [] => 0 end.
Definition completed (nmu : Z) (es : list entry) : list entry := if Rlt_dec 0 (first_cdf es) then zero_entry nmu :: es else es.
(** the table [t] is the table of these entries *)
Definition table_of (es : list entry) (t : ctable R) : Prop :=
  ct_energy t = map en_E es /\ ct_pdf t = map en_pdf es /\ ct_cdf t = map en_cdf es /\ ct_cos t = map en_mu es.
Definition decodes (nmu : Z) (es : list entry) (t : ctable R) : Prop := exists es', Forall2 cleaned es es' /\ table_of (completed nmu es') t.
(** where a table starts and what it holds *)
Definition table_at (a : ace R) (nmu loc noe : Z) (es : list entry) : Prop :=
  u32 loc /\ u32 noe /\ sizeZ es = noe /\ table_ok nmu es /\ holds a loc (entries_block es).
(** one table per incident energy: locators, numbers of entries, entries *)
Inductive tables_at (a : ace R) (nmu : Z) : list Z -> list Z -> list (list entry) -> Prop :=
| ta_nil : tables_at a nmu [] [] []
| ta_cons loc noe es locs noes tabs : table_at a nmu loc noe es -> tables_at a nmu locs noes tabs -> tables_at a nmu (loc :: locs) (noe :: noes) (es :: tabs).
