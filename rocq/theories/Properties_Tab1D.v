(** * Property theorems C04 - C08 (tabulated_1d.hpp/.cpp, linearize.cpp) *)
From Coquelicot Require Import Coquelicot.
From Verif Require Import Base NumR NumF M_Interp M_Tab1D M_Span S_Interp S_Tab1D L_SearchR L_Tab1D L_Tab1DR L_Tab1DI
  L_Tab1DP L_OrderF L_Tab1DF L_Linearize L_Linearize2 L_Span L_Span2 S_TabCtor L_TabCtor.
Local Open Scope R_scope.

(** ** C04.  Value of a table: clamped outside, and inside the ENDF law (C01) of the segment that
    brackets the argument.  [valid_breakpoints], [segment_law] are in S_Tab1D. *)
Theorem C04_value : forall NBT INT x y t,
  valid_breakpoints NBT (sizeZ x) -> (sizeZ x < 2 ^ 64)%Z -> make_tab NBT INT x y = Ok t ->
  (forall v, v <= getR x 0 -> tab_eval t v = Ok (getR y 0)) /\
  (forall v, getR x (sizeZ x - 1) < v -> tab_eval t v = Ok (getR y (sizeZ x - 1))) /\
  (forall v, getR x 0 < v < getR x (sizeZ x - 1) -> exists w, tab_eval t v = Ok w /\
     ((exists j, (0 <= j < sizeZ x)%Z /\ v = getR x j /\ w = getR y j) \/
      (exists j i, (0 <= j)%Z /\ (j + 1 < sizeZ x)%Z /\ getR x j < v <= getR x (j + 1) /\
         segment_law NBT INT j = Some i /\
         w = interpolate i v (getR x j) (getR y j) (getR x (j + 1)) (getR y (j + 1))))).
Proof. exact tab_value. Qed.
Print Assumptions C04_value.

Theorem C04_grid_value : forall NBT INT x y t,
  valid_breakpoints NBT (sizeZ x) -> (sizeZ x < 2 ^ 64)%Z -> make_tab NBT INT x y = Ok t ->
  strictly_increasing x -> valid_segments NBT INT x y ->
  forall k, (0 <= k < sizeZ x)%Z ->
  ((0 < k < sizeZ x - 1)%Z -> segment_law NBT INT (k - 1) <> Some Histogram) ->
  tab_eval t (getR x k) = Ok (getR y k).
Proof. exact tab_value_grid. Qed.
Print Assumptions C04_grid_value.

(** memory safety of evaluation, for any arithmetic whose comparisons are a total preorder on the
    abscissae and the argument: stated for binary64 (all doubles that are not NaN, all libms). *)
Theorem C04_no_out_of_range : forall lm NBT INT (x y : list float) t v,
  valid_breakpoints NBT (sizeZ x) -> (sizeZ x < 2 ^ 64)%Z -> Forall notNaN x -> notNaN v ->
  @make_tab _ (NumF lm) NBT INT x y = Ok t -> exists w, @tab_eval _ (NumF lm) t v = Ok w.
Proof. exact (fun lm NBT INT x y t v => @tab_eval_safe float (NumF lm) notNaN (NumF_order lm) NBT INT x y t v). Qed.
Print Assumptions C04_no_out_of_range.

Example C04_hypotheses_met : valid_breakpoints [2; 4]%Z (sizeZ [0; 1; 2; 3]) /\
  segment_law [2; 4]%Z [LinLin; LogLog] 0 = Some LinLin /\ segment_law [2; 4]%Z [LinLin; LogLog] 1 = Some LogLog.
Proof. exact valid_breakpoints_example. Qed.
Example C04_accepted_table : forall lm, exists t,
  @make_tab _ (NumF lm) [2; 4]%Z [LinLin; LogLog] [0.5; 1; 2; 3]%float [5; 6; 7; 7.5]%float = Ok t.
Proof. exact tab_float_example. Qed.

(** The code deviates from the ENDF Histogram law at interior abscissae: there it returns the
    ordinate of the *previous* point. *)
Theorem C04_histogram_grid_point_refuted : forall lm,
  (let! t := @make_tab1 _ (NumF lm) Histogram [0; 1; 2]%float [5; 6; 7]%float in @tab_eval _ (NumF lm) t 1%float)
  = Ok 5%float.
Proof. exact histogram_grid_point. Qed.
Print Assumptions C04_histogram_grid_point_refuted.

(** ** C05.  integrals *)
Theorem C05_integral_partial : forall NBT INT x y t,
  valid_breakpoints NBT (sizeZ x) -> (sizeZ x < 2 ^ 64)%Z -> make_tab NBT INT x y = Ok t ->
  integrable_segments NBT INT x y ->
  forall a b, exists v, tab_integrate t a b = Ok v /\
    is_RInt (fun u => match tab_eval t u with Ok w => w | _ => 0 end)
      (clampR (getR x 0) (getR x (sizeZ x - 1)) a) (clampR (getR x 0) (getR x (sizeZ x - 1)) b) v.
Proof. exact tab_integrate_RInt. Qed.
Print Assumptions C05_integral_partial.

Theorem C05_antisymmetric_additive_partial : forall NBT INT x y t,
  valid_breakpoints NBT (sizeZ x) -> (sizeZ x < 2 ^ 64)%Z -> make_tab NBT INT x y = Ok t ->
  integrable_segments NBT INT x y ->
  forall a b c, exists vab vbc vac vba,
    tab_integrate t a b = Ok vab /\ tab_integrate t b c = Ok vbc /\ tab_integrate t a c = Ok vac /\
    tab_integrate t b a = Ok vba /\ vac = vab + vbc /\ vba = - vab.
Proof. exact tab_integrate_chasles. Qed.
Print Assumptions C05_antisymmetric_additive_partial.

Example C05_hypotheses_met : integrable_segments [2; 4]%Z [LinLin; LogLog] [1; 2; 3; 4] [5; 6; 7; 8] /\
  valid_breakpoints [2; 4]%Z (sizeZ [1; 2; 3; 4]) /\
  exists t, make_tab [2; 4]%Z [LinLin; LogLog] [1; 2; 3; 4] [5; 6; 7; 8] = Ok t.
Proof. exact integrable_example. Qed.

(** A jump (repeated abscissa) inside one LinLin region is accepted but its integral is NaN. *)
Theorem C05_jump_inside_region_refuted : forall lm,
  exists t r, @make_tab _ (NumF lm) [4]%Z [LinLin] [0; 1; 1; 2]%float [1; 1; 2; 2]%float = Ok t /\
              @tab_integrate _ (NumF lm) t 0%float 2%float = Ok r /\ PrimFloat.is_nan r = true.
Proof. exact jump_integral_nan. Qed.
Print Assumptions C05_jump_inside_region_refuted.

(** ** C06.  construction *)
Theorem C06_construction_safe_partial : forall lm NBT INT (x y : list float),
  valid_breakpoints NBT (sizeZ x) -> (sizeZ x < 2 ^ 64)%Z ->
  @make_tab _ (NumF lm) NBT INT x y = Throw \/ exists t, @make_tab _ (NumF lm) NBT INT x y = Ok t.
Proof. exact make_tab_float_safe. Qed.
Print Assumptions C06_construction_safe_partial.

(** a table under one law is accepted exactly when it has as many ordinates as abscissae, at least one, in order, and meets the
    condition of its law ([grid_ok] in S_TabCtor); otherwise the constructor throws *)
Theorem C06_accepted_tables : forall i (x y : list R), (sizeZ x < 2 ^ 32)%Z ->
  ((exists t, make_tab1 i x y = Ok t) <-> length x = length y /\ x <> [] /\ increasing x /\ grid_ok i x y) /\
  ((exists t, make_tab1 i x y = Ok t) \/ make_tab1 i x y = Throw).
Proof. exact make_tab1_accepts. Qed.
Print Assumptions C06_accepted_tables.
Example C06_accepted_case : grid_ok LogLin [1; 2]%R [1; 4]%R /\ ~ grid_ok LogLin [1; 2]%R [1; -4]%R.
Proof.
  split; [left; intros v [<-|[<-|[]]]; lra|]. intros [H|H]; [pose proof (H (-4) (or_intror (or_introl eq_refl)))|pose proof (H 1 (or_introl eq_refl))]; lra.
Qed.

Theorem C06_breakpoint_beyond_data_refuted : forall lm,
  @make_tab _ (NumF lm) [3]%Z [LinLin] [0; 1]%float [0; 1]%float = UB.
Proof. exact breakpoint_beyond_UB. Qed.
Theorem C06_no_breakpoints_refuted : forall lm,
  exists t, @make_tab _ (NumF lm) [] [] [0; 1]%float [0; 1]%float = Ok t /\ @tab_eval _ (NumF lm) t 0.5%float = UB.
Proof. exact no_breakpoints_UB. Qed.
Print Assumptions C06_no_breakpoints_refuted.

(** ** C07.  ownership *)
Theorem C07_without_copy_or_linearize_partial : forall os, Forall no_copy os -> run heap0 os <> UB.
Proof. exact run_no_copy_safe. Qed.
Print Assumptions C07_without_copy_or_linearize_partial.
Theorem C07_copies_while_nothing_is_freed_partial : forall os, Forall no_free os -> run heap0 os <> UB.
Proof. exact run_no_free_safe. Qed.
(** exactly when an evaluation is defined, after any history of constructions, copies, assignments, linearizations and destructions: when the
    storage the object's spans point into still belongs to an existing object *)
Theorem C07_evaluation_defined_iff_partial : forall os h i d, run heap0 os = Ok h -> objs h i = Some d ->
  (step h (Eval i) = Ok h <-> exists j e, objs h j = Some e /\ own e = view d) /\ (step h (Eval i) = UB <-> ~ exists j e, objs h j = Some e /\ own e = view d).
Proof. exact eval_iff. Qed.
Print Assumptions C07_evaluation_defined_iff_partial.
(** a constructed object views its own storage, a copy or an assigned object views what its source views; storage is never shared *)
Theorem C07_views_partial : forall h, (forall l, exists h', step h (New l) = Ok h' /\ objs h' (next h) = Some (mkObj (next h) (next h) l)) /\
  (forall src s, objs h src = Some s -> exists h', step h (Copy src) = Ok h' /\ objs h' (next h) = Some (mkObj (next h) (view s) (lin s))) /\
  (forall dst src r d s, objs h dst = Some d -> objs h src = Some s -> dst <> src -> exists h' b, step h (Assign dst src r) = Ok h' /\ objs h' dst = Some (mkObj b (view s) (lin s))).
Proof. exact views. Qed.
Theorem C07_storage_is_not_shared_partial : forall os h i j d e, run heap0 os = Ok h -> objs h i = Some d -> objs h j = Some e -> own d = own e -> i = j.
Proof. intros os h i j d e R. exact (oh_one _ (owned_run os heap0 h owned0 R) i j d e). Qed.
Theorem C07_linearize_refuted : forall h i d realloc h',
  objs h i = Some d -> lin d = false -> step h (Linearize i realloc) = Ok h' -> step h' (Eval i) = UB.
Proof. exact linearize_dangles. Qed.
Theorem C07_copy_refuted : run heap0 [New true; Copy 0; Destroy 0; Eval 1] = UB.
Proof. exact copy_dangles. Qed.
Print Assumptions C07_linearize_refuted.
Example C07_hypotheses_met : Forall no_copy [New false; New true; Eval 0; Destroy 0; Eval 1] /\
  exists h, run heap0 [New false; New true; Eval 0; Destroy 0; Eval 1] = Ok h.
Proof. exact no_copy_example. Qed.
Example C07_linearize_hypotheses_met : run heap0 [New false; Linearize 0 true; Eval 0] = UB
                               /\ run heap0 [New false; Linearize 0 false; Eval 0] = UB.
Proof. exact linearize_dangles_example. Qed.

(** ** C08.  linearize *)
Theorem C08_linearize : forall adj fuel ix f tol t, ix <> [] ->
  linearize adj fuel ix (map f ix) f tol = Ok t ->
  increasing (t_x t) /\ t_y t = map f (t_x t) /\ (forall v, In v ix -> In v (t_x t)) /\
  hd 0 (t_x t) = hd 0 ix /\ last (t_x t) 0 = last ix 0 /\
  (forall j, (0 <= j)%Z -> (j + 1 < sizeZ (t_x t))%Z ->
     adj (getR (t_x t) j) (getR (t_x t) (j + 1)) = true \/
     f ((getR (t_x t) j + getR (t_x t) (j + 1)) / 2) = 0 \/
     midpoint_within f tol (getR (t_x t) j) (getR (t_x t) (j + 1))).
Proof. exact linearize_correct. Qed.
Print Assumptions C08_linearize.

Theorem C08_linearized_table_is_the_chord : forall adj fuel ix f tol t, ix <> [] ->
  linearize adj fuel ix (map f ix) f tol = Ok t -> (sizeZ (t_x t) < 2 ^ 32)%Z ->
  forall j v, (0 <= j)%Z -> (j + 1 < sizeZ (t_x t))%Z -> getR (t_x t) j < v < getR (t_x t) (j + 1) ->
  exists w, tab_eval t v = Ok w /\
  w = f (getR (t_x t) j) + (f (getR (t_x t) (j + 1)) - f (getR (t_x t) j)) *
        ((v - getR (t_x t) j) / (getR (t_x t) (j + 1) - getR (t_x t) j)).
Proof. exact linearize_eval. Qed.
Print Assumptions C08_linearized_table_is_the_chord.

Theorem C08_linearize_terminates : forall adj eps f tol,
  0 < eps -> (forall a b, 0 <= b - a <= eps -> adj a b = true) ->
  forall ix, ix <> [] -> exists n, forall m,
   linearize adj (n + m) ix (map f ix) f tol <> NoDraw /\ linearize adj (n + m) ix (map f ix) f tol <> UB.
Proof. exact linearize_terminates. Qed.
Print Assumptions C08_linearize_terminates.

Example C08_hypotheses_met : exists t,
  linearize (fun _ _ => false) 5 [1; 2] (map (fun x => x * x) [1; 2]) (fun x => x * x) (1 / 10) = Ok t /\
  t_x t = [1; 1 / 2 * (1 + 2); 2].
Proof. exact linearize_example. Qed.

(** an empty grid is not rejected: x.size()-1 wraps and x[0] is read *)
(** the form with two end points refuses an interval that is empty or reversed, and otherwise starts from its two end points *)
Theorem C08_interval : forall adj fuel (a b : R) f tol,
  (b <= a -> linearize_interval adj fuel a b f tol = Throw) /\
  (a < b -> linearize_interval adj fuel a b f tol = linearize adj fuel [a; b] [f a; f b] f tol).
Proof.
  intros. unfold linearize_interval. change (@nleb R NumR) with Rleb. split; intros H; [rewrite (proj2 (Rleb_true b a)) by lra|rewrite (proj2 (Rleb_false b a)) by lra]; reflexivity.
Qed.
Print Assumptions C08_interval.
Theorem C08_empty_grid_refuted : forall lm adj n f (tol : float),
  @linearize _ (NumF lm) adj (S n) [] [] f tol = UB.
Proof. exact (fun lm => @linearize_empty_UB _ (NumF lm)). Qed.
Print Assumptions C06_breakpoint_beyond_data_refuted.
Print Assumptions C07_copies_while_nothing_is_freed_partial.
Print Assumptions C07_copy_refuted.
Print Assumptions C08_empty_grid_refuted.
Print Assumptions C07_views_partial.
Print Assumptions C07_storage_is_not_shared_partial.
