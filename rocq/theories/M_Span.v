(** * Storage model of Tabulated1D: owned vectors and the spans inside regions_.
    tabulated_1d.hpp 264-275: [x_], [y_] are std::vector (owned heap buffers) while each
    InterpolationRange in [regions_] holds std::span's, i.e. pointers, into some buffer.  The class
    declares only a defaulted destructor (64), so copy construction and copy assignment are the
    implicit member-wise ones and there is no move: vectors are deep-copied, spans are copied
    as pointers.  One buffer id stands for the pair of buffers of x_ and y_. *)
From Verif Require Import Base.

Record object := mkObj {
  own : nat;      (* buffer owned by x_, y_ *)
  view : nat;     (* buffer the spans of regions_ point into *)
  lin : bool      (* interpolation_ is the single law LinLin *)
}.
Record heap := mkHeap { next : nat; objs : nat -> option object; live : nat -> bool }.
Definition heap0 : heap := mkHeap 0 (fun _ => None) (fun _ => false).

Definition upd {A} (f : nat -> A) (k : nat) (a : A) : nat -> A := fun n => if Nat.eqb n k then a else f n.

Inductive op :=
| New (l : bool)                              (* construct from data; l: the law is LinLin *)
| Copy (src : nat)                            (* Tabulated1D b(a) *)
| Assign (dst src : nat) (realloc : bool)     (* b = a; vector assignment may or may not reallocate *)
| Linearize (o : nat) (realloc : bool)        (* o.linearize() *)
| Destroy (o : nat)
| Eval (o : nat).                             (* o(x) or o.integrate(a,b) *)

(** member-wise copy assignment of [s] to object [d] (implicit operator=) *)
Definition assign (h : heap) (dst : nat) (d s : object) (realloc : bool) : heap :=
  if realloc then
    mkHeap (S (next h)) (upd (objs h) dst (Some (mkObj (next h) (view s) (lin s))))
           (upd (upd (live h) (own d) false) (next h) true)
  else mkHeap (next h) (upd (objs h) dst (Some (mkObj (own d) (view s) (lin s)))) (live h).

(** [Throw] marks a history that names a nonexistent object (not a C++ program). *)
Definition step (h : heap) (o : op) : res heap :=
  match o with
  | New l =>
      (* tabulated_1d.cpp 31-118: spans built on this object's own vectors *)
      Ok (mkHeap (S (next h)) (upd (objs h) (next h) (Some (mkObj (next h) (next h) l)))
                 (upd (live h) (next h) true))
  | Copy src =>
      match objs h src with
      | Some s => Ok (mkHeap (S (next h)) (upd (objs h) (next h) (Some (mkObj (next h) (view s) (lin s))))
                             (upd (live h) (next h) true))
      | None => Throw
      end
  | Assign dst src realloc =>
      match objs h dst, objs h src with
      | Some d, Some s => if Nat.eqb dst src then Ok h else Ok (assign h dst d s realloc)
      | _, _ => Throw
      end
  | Linearize i realloc =>
      (* tabulated_1d.cpp 120-138 *)
      match objs h i with
      | Some d =>
          if lin d then Ok h                                (* 121-125 *)
          else if negb (live h (view d)) then UB            (* 131 evaluates *this *)
          else
            let b := next h in                              (* 131: new_tab owns buffer b *)
            let h1 := mkHeap (S b) (objs h) (upd (live h) b true) in
            let h2 := assign h1 i d (mkObj b b true) realloc in     (* 132: *this = new_tab *)
            Ok (mkHeap (next h2) (objs h2) (upd (live h2) b false)) (* 133: new_tab destroyed *)
      | None => Throw
      end
  | Destroy i =>
      match objs h i with
      | Some d => Ok (mkHeap (next h) (upd (objs h) i None) (upd (live h) (own d) false))
      | None => Throw
      end
  | Eval i =>
      match objs h i with
      | Some d => if live h (view d) then Ok h else UB
      | None => Throw
      end
  end.

Fixpoint run (h : heap) (os : list op) : res heap :=
  match os with [] => Ok h | o :: t => let! h' := step h o in run h' t end.
