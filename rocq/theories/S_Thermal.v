(** * Specification vocabulary for thermal scattering (C45-C47, C70, C71) *)
From Verif Require Import Base NumR L_SearchR M_Interp M_PC S_PC M_OutE S_OutE M_Ace M_Thermal.
Local Open Scope R_scope.

(** the draw x in [0,1) falls in the k-th of n equal bins *)
Definition kth (n : Z) (x : R) (k : Z) : Prop := (0 <= k < n)%Z /\ IZR k <= IZR n * x < IZR k + 1.

(** ** coherent elastic: edges, and the cumulated structure factors *)
Record valid_coh (c : coh R) : Prop := {
  vc_edges : increasing (c_edges c);
  vc_pos : forall e, In e (c_edges c) -> 0 <= e;
  vc_size : sizeZ (c_sum c) = sizeZ (c_edges c) }.
(** l is the last edge below E *)
Definition last_edge_below (edges : list R) (E : R) (l : Z) : Prop :=
  (0 <= l < sizeZ edges)%Z /\ getR edges l < E /\ ((l + 1 < sizeZ edges)%Z -> E <= getR edges (l + 1)).

(** ** equiprobable cosines. The k-th interpolated cosine is smeared over its bin: the bin reaches halfway to the neighbouring
    interpolated cosines, or to -1 and 1 at the ends. *)
Definition cos_at (row1 row2 : list R) (f : R) (k : Z) : R := mix f (getR row1 k) (getR row2 k).
Definition in_cosine_bin (row1 row2 : list R) (f : R) (n k : Z) (mu : R) : Prop :=
  let m := cos_at row1 row2 f in
  (if (k =? 0)%Z then -1 else (m (k - 1)%Z + m k) / 2) <= mu <= (if (k =? n - 1)%Z then 1 else (m k + m (k + 1)%Z) / 2).
Definition cosine_row (n : Z) (row : list R) : Prop := sizeZ row = n /\ increasing row /\ (forall m, In m row -> -1 <= m <= 1).

(** ** incoherent elastic *)
Record valid_inco (d : inco R) : Prop := {
  vi_nmu : (0 < ie_nmu d < 2 ^ 32)%Z;
  vi_in : increasing (ie_in d);
  vi_size : sizeZ (ie_cos d) = sizeZ (ie_in d);
  vi_rows : forall r, In r (ie_cos d) -> cosine_row (ie_nmu d) r }.

(** ** discrete outgoing energies and cosines *)
Record valid_dce (d : dce R) : Prop := {
  vd_noe : (0 < d_noe d < 2 ^ 32)%Z; vd_nmu : (0 < d_nmu d < 2 ^ 32)%Z;
  vd_six : d_skewed d = true -> (6 <= d_noe d)%Z;
  vd_in : increasing (d_in d); vd_some : (0 < sizeZ (d_in d))%Z;
  vd_size : sizeZ (d_out d) = sizeZ (d_in d);
  vd_rows : forall row, In row (d_out d) -> sizeZ row = d_noe d;
  vd_entries : forall row e, In row (d_out d) -> In e row -> 0 < fst e /\ sizeZ (snd e) = d_nmu d /\ forall m, In m (snd e) -> -1 <= m <= 1 }.
(** outgoing energy index: all equally probable; or, skewed, in the proportions 1, 4, 10, ..., 10, 4, 1 *)
Definition unit_prob (n : Z) : R := 1 / (10 * (IZR n - 3)).
Definition skewed_index (n : Z) (xi x : R) (j : Z) : Prop :=
  let c := unit_prob n in
  (xi < c /\ j = 0%Z) \/ (c <= xi < 5 * c /\ j = 1%Z) \/ (5 * c <= xi < 1 - 5 * c /\ kth (n - 4) x (j - 2)) \/
  (1 - 5 * c <= xi < 1 - c /\ j = (n - 2)%Z) \/ (1 - c <= xi /\ j = (n - 1)%Z).
Definition dce_energy (d : dce R) (i j : Z) : R := fst (nth (Z.to_nat j) (nth (Z.to_nat i) (d_out d) []) (0, [])).
Definition dce_cos (d : dce R) (i j k : Z) : R := getR (snd (nth (Z.to_nat j) (nth (Z.to_nat i) (d_out d) []) (0, []))) k.
(** the neighbouring incident energies and the interpolation factor, also when there is a single incident energy *)
Definition neighbours (energy : list R) (E : R) (i1 i2 : Z) (f : R) : Prop :=
  (0 <= i1 < sizeZ energy)%Z /\ (0 <= i2 < sizeZ energy)%Z /\ 0 <= f <= 1 /\
  ((E <= getR energy 0 /\ i1 = 0%Z /\ i2 = 0%Z) \/
   (getR energy (sizeZ energy - 1) < E /\ i1 = (sizeZ energy - 1)%Z /\ i2 = (sizeZ energy - 1)%Z) \/
   (i2 = (i1 + 1)%Z /\ getR energy i1 < E <= getR energy i2 /\ E = mix f (getR energy i1) (getR energy i2))).

(** ** continuous outgoing energies, discrete cosines. The shape of every accepted table ... *)
Record shape_ct (nmu : Z) (t : ctable R) : Prop := {
  sc_energy : increasing (ct_energy t); sc_first : forall e, In e (ct_energy t) -> 0 <= e;
  sc_cdf : increasing (ct_cdf t); sc_pdf : forall p, In p (ct_pdf t) -> 0 <= p;
  sc_size : (0 < sizeZ (ct_energy t))%Z; sc_size1 : sizeZ (ct_pdf t) = sizeZ (ct_energy t); sc_size2 : sizeZ (ct_cdf t) = sizeZ (ct_energy t);
  sc_size3 : sizeZ (ct_cos t) = sizeZ (ct_energy t);
  sc_cos : forall r, In r (ct_cos t) -> cosine_row nmu r }.
(** ... and of a table whose CDF is, moreover, the integral of its PDF *)
Definition valid_ct (nmu : Z) (t : ctable R) : Prop := shape_ct nmu t /\ valid_table (ct_energy t) (ct_pdf t) (ct_cdf t) LinLin.
Record shape_cedc (d : cedc R) : Prop := {
  sd_nmu : (0 < ce_nmu d < 2 ^ 32)%Z; sd_in : increasing (ce_in d); sd_size : sizeZ (ce_tables d) = sizeZ (ce_in d);
  sd_tables : forall t, In t (ce_tables d) -> shape_ct (ce_nmu d) t }.

(** ** a linearly interpolated table, constant outside *)
Definition lin_table (x y : list R) (E w : R) : Prop :=
  (E <= getR x 0 /\ w = getR y 0) \/ (getR x (sizeZ x - 1) <= E /\ w = getR y (sizeZ x - 1)) \/
  (exists j, (0 <= j)%Z /\ (j + 1 < sizeZ x)%Z /\ getR x j < E <= getR x (j + 1) /\
     w = mix ((E - getR x j) / (getR x (j + 1) - getR x j)) (getR y j) (getR y (j + 1))).

(** the table at the nearer of the two bracketing incident energies *)
Definition nearest_of (l : Z) (f : R) : Z := if Rlt_dec (1 / 2) f then (l + 1)%Z else l.
(** MCNP's shift of the sampled energy h from the tabulated incident energy e to E *)
Definition shifted (h e E : R) : R := if Rlt_dec h (e / 2) then h * (2 * E / e - 1) else h + (E - e).

(** ** the cross section tables of the file: the number of points, the energies, the values *)
Definition inel_tab (a : ace R) (x y : list R) : Prop := exists Ne, xss_u32 a (jxs a 0 - 1) = Ok Ne /\ xss_vec a (jxs a 0) Ne = Ok x /\ xss_vec a (jxs a 0 + Ne) Ne = Ok y.
Definition inco_tab (a : ace R) (x y : list R) : Prop := exists Ne, xss_u32 a (jxs a 3 - 1) = Ok Ne /\ xss_vec a (jxs a 3) Ne = Ok x /\ xss_vec a (jxs a 3 + Ne) Ne = Ok y.
