(** * Specification: tabulated probability densities *)
From Verif Require Import Base NumR L_SearchR M_Interp.
Local Open Scope R_scope.

(** area under the density between two neighbouring points *)
Definition seg_area (i : interpolation) (v1 p1 v2 p2 : R) : R :=
  match i with Histogram => p1 * (v2 - v1) | _ => (p1 + p2) / 2 * (v2 - v1) end.
(** a tabulated density whose tabulated CDF is the integral of its PDF *)
Record valid_table (values pdf cdf : list R) (i : interpolation) : Prop := {
  vt_interp : i = Histogram \/ i = LinLin;
  vt_pdf_size : length pdf = length values;
  vt_cdf_size : length cdf = length values;
  vt_nonempty : (1 <= sizeZ values)%Z;
  vt_values : increasing values;
  vt_nonneg : forall p, In p pdf -> 0 <= p;
  vt_first : getR cdf 0 = 0;
  vt_last : getR cdf (sizeZ cdf - 1) = 1;
  vt_area : forall k, (0 <= k)%Z -> (k + 1 < sizeZ values)%Z ->
    getR cdf (k + 1) - getR cdf k = seg_area i (getR values k) (getR pdf k) (getR values (k + 1)) (getR pdf (k + 1)) }.
