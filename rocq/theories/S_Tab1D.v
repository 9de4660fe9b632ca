(** * Specification side of tabulated functions: breakpoints and the law of each segment *)
From Verif Require Import Base M_Interp.
Local Open Scope Z_scope.

(** breakpoints increase strictly from above [prev] and the last one is [n] *)
Fixpoint increasing_to (prev : Z) (NBT : list Z) (n : Z) : Prop :=
  match NBT with
  | [] => prev = n
  | h :: t => prev < h /\ increasing_to h t n
  end.
(** ENDF breakpoints of a table with [n] points: 1 <= NBT_1 < NBT_2 < ... < NBT_NR = n *)
Definition valid_breakpoints (NBT : list Z) (n : Z) : Prop := NBT <> [] /\ increasing_to 0 NBT n.

(** ENDF: the segment between points j and j+1 (counted from 0) obeys the law of the first
    interpolation region whose breakpoint exceeds j+1 *)
Fixpoint segment_law (NBT : list Z) (INT : list interpolation) (j : Z) : option interpolation :=
  match NBT, INT with
  | h :: t, i :: is => if (j + 1 <? h)%Z then Some i else segment_law t is j
  | _, _ => None
  end.
