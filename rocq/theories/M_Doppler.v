(** * Model of src/elastic_dbrc.cpp: Doppler broadening rejection correction *)
From Verif Require Import Base M_Grid M_Kin.
Local Open Scope num_scope.

Section Doppler.
  Context {T : Type} {N : Num T}.
  (** elastic_dbrc.cpp 65-79: the rejection loop around ElasticSVT; [fuel] bounds the number of passes (each pass
      consumes random numbers, so the length of the draw list is enough fuel) *)
  Fixpoint dbrc_loop (fuel : nat) (xs : xsec T) (Ein kT awr Er_min Er_max xs_max : T) (v_n : vec T) : rand T (vec T) :=
    match fuel with
    | O => fun _ => NoDraw
    | S f =>
      rlet! v_t := svt_sample Ein kT awr in
      let vr := vsub v_n v_t in
      let Er := vdot vr vr in
      if (Er <~ Er_min) || (Er >~ Er_max) then dbrc_loop f xs Ein kT awr Er_min Er_max xs_max v_n else
      rlet! i_Er := rlift (get_lower_index (x_grid xs) Er) in
      rlet! xs_Er := rlift (xs_eval_i xs Er i_Er) in
      rlet! r := draw in
      if (r *~ xs_max) <~ xs_Er then rret v_t else dbrc_loop f xs Ein kT awr Er_min Er_max xs_max v_n
    end.
  (** elastic_dbrc.cpp 49-82 *)
  Definition dbrc_sample (xs : xsec T) (Ein kT awr : T) : rand T (vec T) := fun ds =>
    (let v_n := mkVec #0 #0 (nsqrt Ein) in
     let y := nsqrt (awr *~ Ein /~ kT) in
     let y_min := nmax #0 (y -~ #4) in
     let Er_min := y_min *~ y_min *~ kT /~ awr in
     let y_max := y +~ #4 in
     let Er_max := y_max *~ y_max *~ kT /~ awr in
     rlet! xs_max := rlift (max_xs_value xs Er_min Er_max) in
     dbrc_loop (S (length ds)) xs Ein kT awr Er_min Er_max xs_max v_n) ds.
End Doppler.
