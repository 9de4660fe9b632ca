(** * C101: cross sections and tables evaluated in double precision. *)
From Coq Require Import Reals ZArith List Floats.
From Verif Require Import Base NumF S_PickF S_LinF M_Interp M_Tab1D M_Grid M_Packet M_Neutron L_OrderF L_LinF L_XsF L_PktF L_PktFEx.
Import ListNotations.
Local Open Scope R_scope.

(** every cross section an evaluation can be asked for, at every double but NaN: full claim but "stays between the two neighbouring values", which rounding breaks by at most 2^-51 (below) *)
Theorem C101_cross_section_partial : forall lm vals NB sig idx g x E, @make_grid _ (NumF lm) vals NB = Ok g \/ @make_grid_ace _ (NumF lm) vals NB = Ok g -> Forall fin vals -> (sizeZ vals < 2 ^ 64)%Z -> (0 <= idx < 2 ^ 32)%Z ->
  @make_xs _ (NumF lm) sig g idx = Ok x \/ ((idx < sizeZ vals)%Z /\ @make_xs_ace _ (NumF lm) (idx + 1) sig g false = Ok x) -> Forall datum sig -> notNaN E ->
  exists v, @xs_eval _ (NumF lm) x E = Ok v /\ evaluates vals sig idx E v.
Proof. intros lm vals NB sig idx g x E G F S I X D N. exact (eval_F lm x vals sig idx (good_of lm vals NB sig idx g x G F S I X D) E N). Qed.
Print Assumptions C101_cross_section_partial.
(** the same with the index of the energy already known *)
Theorem C101_cross_section_at_index_partial : forall lm vals NB sig idx g x i e1 e2 E, @make_grid _ (NumF lm) vals NB = Ok g \/ @make_grid_ace _ (NumF lm) vals NB = Ok g -> Forall fin vals -> (sizeZ vals < 2 ^ 64)%Z -> (0 <= idx < 2 ^ 32)%Z ->
  @make_xs _ (NumF lm) sig g idx = Ok x \/ ((idx < sizeZ vals)%Z /\ @make_xs_ace _ (NumF lm) (idx + 1) sig g false = Ok x) -> Forall datum sig ->
  atZ vals i = Ok e1 -> atZ vals (i + 1) = Ok e2 -> fin E -> BR e1 <= BR E <= BR e2 -> BR e1 < BR e2 -> exists v, @xs_eval_i _ (NumF lm) x E i = Ok v /\ evaluates_i sig idx i e1 e2 E v.
Proof. intros lm vals NB sig idx g x i e1 e2 E G F S I X D A1 A2 FE H L. exact (eval_i_F lm x vals sig idx i e1 e2 E (good_of lm vals NB sig idx g x G F S I X D) S A1 A2 FE H L). Qed.
Print Assumptions C101_cross_section_at_index_partial.
(** the cross sections a nuclide returns are finite and never negative *)
Theorem C101_packet_nonnegative : forall lm (n : neutron float) vals NB E i e1 e2 p, @make_grid _ (NumF lm) vals NB = Ok (n_grid n) \/ @make_grid_ace _ (NumF lm) vals NB = Ok (n_grid n) -> Forall fin vals -> (sizeZ vals < 2 ^ 64)%Z ->
  Forall (built_on lm (n_grid n)) [n_total n; n_elastic_xs n; n_fission_xs n; n_disappearance n] -> (forall r, @neutron_reaction _ n 102 = Ok r -> built_on lm (n_grid n) (rx_xs r)) ->
  atZ vals i = Ok e1 -> atZ vals (i + 1) = Ok e2 -> fin E -> BR e1 <= BR E <= BR e2 -> BR e1 < BR e2 -> @neutron_xs_i _ (NumF lm) n E i = Ok p ->
  nonnegative (total p) /\ nonnegative (elastic p) /\ nonnegative (inelastic p) /\ nonnegative (absorption p) /\ nonnegative (fission p) /\ nonnegative (capture p).
Proof. exact packet_F. Qed.
Print Assumptions C101_packet_nonnegative.
(** lin-lin tables (multiplicities, temperatures, thermal cross sections) *)
Theorem C101_table : forall lm xs ys t E, @make_tab1 _ (NumF lm) LinLin xs ys = Ok t -> (0 < sizeZ xs < 2 ^ 32)%Z -> Forall fin xs -> (forall a, atZ xs 0 = Ok a -> 0 <= BR a) -> Forall (fun s => datum s /\ 0 <= BR s) ys -> notNaN E ->
  exists v, @tab_eval _ (NumF lm) t E = Ok v /\ table_evaluates xs ys E v.
Proof. exact table_F. Qed.
Print Assumptions C101_table.
(** an evaluation strictly between two grid energies can exceed both tabulated values *)
Theorem C101_overshoot_refuted : exists vals sig E, Forall fin vals /\ Forall datum sig /\ forall lm (g : egrid float), g_vals g = vals -> exists x v, @make_xs _ (NumF lm) sig g 0 = Ok x /\ @xs_eval _ (NumF lm) x E = Ok v /\
  PrimFloat.ltb (nth 0 vals 0%float) E = true /\ PrimFloat.ltb E (nth 1 vals 0%float) = true /\ length vals = 2%nat /\ forall s, In s sig -> PrimFloat.ltb s v = true.
Proof.
  exists ov_grid, ov_sig, ov_E. split; [apply ov_data|]. split; [apply ov_data|]. intros lm g Hg. destruct (overshoot lm g Hg) as (x & v & A & B & C & D & E1 & E2). exists x, v.
  split; [exact A|]. split; [exact B|]. split; [exact C|]. split; [exact D|]. split; [reflexivity|]. intros s [<-|[<-|[]]]; [|exact E2].
  assert (N : forall y : float, PrimFloat.is_nan y = false -> notNaN y) by exact notNaN_is_nan.
  pose proof (no_trans (NumF_order lm) (nth 0 ov_sig 0%float) (nth 1 ov_sig 0%float) v (N (nth 0 ov_sig 0%float) eq_refl) (N (nth 1 ov_sig 0%float) eq_refl)) as T. apply T; [|exact E1|exact E2].
  intros Q. rewrite FloatAxioms.ltb_spec, Q in E2. discriminate E2.
Qed.
Print Assumptions C101_overshoot_refuted.

(** concrete cases *)
Example C101_case_nuclide : (@make_grid _ (NumF idm) eg_vals 1 = Ok (n_grid eg_n)) /\ Forall fin eg_vals /\ Forall (built_on idm eg_grid) [n_total eg_n; n_elastic_xs eg_n; n_fission_xs eg_n; n_disappearance eg_n] /\
  (forall r, @neutron_reaction _ eg_n 102 <> Ok r) /\ exists p, @neutron_xs_i _ (NumF idm) eg_n 3%float 1 = Ok p /\ (total p, inelastic p) = (3, 0.5)%float.
Proof. split; [exact eg_made|exact eg_ok]. Qed.
Example C101_case_table : exists t, @make_tab1 _ (NumF idm) LinLin [1; 2; 4]%float [0; 3; 0.1]%float = Ok t /\ exists v, @tab_eval _ (NumF idm) t 3%float = Ok v /\ PrimFloat.ltb 1.5 v = true.
Proof. eexists. split; [vm_compute; reflexivity|]. eexists. split; vm_compute; reflexivity. Qed.
