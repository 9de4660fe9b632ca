(** * Replaying: a sampler depends on the random numbers it consumes and on nothing that follows them *)
From Coq Require Import List.
From Verif Require Import Base. Import ListNotations.

(** whenever the sampler ends, it has consumed the first numbers [used] of the stream; whatever follows them, it returns the same
    value, having consumed the same numbers (so a run can be replayed from the numbers it used, and the next sampling starts where
    this one stopped). If it throws, it throws whatever follows. ([NoDraw]: the given numbers are not enough.) *)
Definition replayable {T A} (s : rand T A) : Prop := forall ds,
  match s ds with
  | Ok (v, rest) => exists used, ds = used ++ rest /\ forall rest', s (used ++ rest') = Ok (v, rest')
  | NoDraw => True
  | Throw => forall more, s (ds ++ more) = Throw
  | UB => forall more, s (ds ++ more) = UB
  end.
