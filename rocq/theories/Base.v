(** * Base: outcomes of C++ calls, checked vectors, numeric operations, random draws *)
From Coq Require Export List ZArith Bool Lia.
Export ListNotations.
Set Implicit Arguments.

(** ** Outcomes.
    [Ok v]  : the call returns normally;
    [Throw] : a pndl::PNDLException leaves the call (include/PapillonNDL/pndl_exception.hpp);
    [UB]    : the call executes undefined behaviour (out-of-range access, use of a wrapped index,
              out-of-range float to integer conversion, dangling storage);
    [NoDraw]: the finite list of random numbers supplied to the model is exhausted (or the explicit
              fuel of a loop is); not an outcome of the real code. *)
Inductive res (A : Type) : Type :=
| Ok (a : A)
| Throw
| UB
| NoDraw.
Arguments Ok {A} a.
Arguments Throw {A}.
Arguments UB {A}.
Arguments NoDraw {A}.

Definition bind {A B} (m : res A) (k : A -> res B) : res B :=
  match m with Ok a => k a | Throw => Throw | UB => UB | NoDraw => NoDraw end.

Declare Scope res_scope.
Delimit Scope res_scope with res.
Notation "'let!' x := m 'in' k" := (bind m (fun x => k))
  (at level 200, x pattern, right associativity) : res_scope.
Notation "m ;; k" := (bind m (fun _ => k)) (at level 100, right associativity) : res_scope.
Global Open Scope res_scope.

(** [guard b] throws unless [b]; models [if (!b) throw PNDLException(...)]. *)
Definition guard (b : bool) : res unit := if b then Ok tt else Throw.

(** ** std::vector access.  [v[i]] with an index that is out of range (or has wrapped below zero,
    which as size_t is far above any size) is undefined behaviour. *)
Definition atZ {A} (v : list A) (i : Z) : res A :=
  if (0 <=? i)%Z then
    match nth_error v (Z.to_nat i) with Some a => Ok a | None => UB end
  else UB.

Definition sizeZ {A} (v : list A) : Z := Z.of_nat (length v).

(** [v.front()] / [v.back()] : UB on an empty vector. *)
Definition frontR {A} (v : list A) : res A := atZ v 0%Z.
Definition backR {A} (v : list A) : res A := atZ v (sizeZ v - 1)%Z.

(** [v[i] = a] *)
Fixpoint upd_nat {A} (v : list A) (i : nat) (a : A) : list A :=
  match v, i with
  | [], _ => []
  | _ :: t, O => a :: t
  | h :: t, S j => h :: upd_nat t j a
  end.
Definition setZ {A} (v : list A) (i : Z) (a : A) : res (list A) :=
  if ((0 <=? i) && (i <? sizeZ v))%Z then Ok (upd_nat v (Z.to_nat i) a) else UB.

(** monadic map *)
Fixpoint mapR {A B} (f : A -> res B) (l : list A) : res (list B) :=
  match l with
  | [] => Ok []
  | a :: t => let! b := f a in let! bs := mapR f t in Ok (b :: bs)
  end.

(** ** Arithmetic on double.  All model code is written against this record of operations.
    Instances: [NumR] (exact reals), [NumF] (IEEE binary64). *)
Class Num (T : Type) : Type := {
  nadd : T -> T -> T;
  nsub : T -> T -> T;
  nmul : T -> T -> T;
  ndiv : T -> T -> T;
  nopp : T -> T;
  nabs : T -> T;
  nsqrt : T -> T;
  nltb : T -> T -> bool;       (* a < b *)
  nleb : T -> T -> bool;       (* a <= b *)
  neqb : T -> T -> bool;       (* a == b *)
  nsignbit : T -> bool;        (* std::signbit *)
  nofZ : Z -> T;               (* integer literal / static_cast<double>(integer) *)
  nfloor : T -> option Z;      (* static_cast<integer>(std::floor(x)); None if not representable *)
  (* libm *)
  nexp : T -> T;
  nlog : T -> T;
  npow : T -> T -> T;
  nsin : T -> T;
  ncos : T -> T;
  nsinh : T -> T;
  ncosh : T -> T;
  nerf : T -> T;
  npi : T
}.

Declare Scope num_scope.
Delimit Scope num_scope with num.
Infix "+~" := nadd (at level 50, left associativity) : num_scope.
Infix "-~" := nsub (at level 50, left associativity) : num_scope.
Infix "*~" := nmul (at level 40, left associativity) : num_scope.
Infix "/~" := ndiv (at level 40, left associativity) : num_scope.
Infix "<~" := nltb (at level 70) : num_scope.
Infix "<=~" := nleb (at level 70) : num_scope.
Infix "==~" := neqb (at level 70) : num_scope.
Notation "a >~ b" := (nltb b a) (at level 70, only parsing) : num_scope.
Notation "a >=~ b" := (nleb b a) (at level 70, only parsing) : num_scope.
Notation "a !=~ b" := (negb (neqb a b)) (at level 70) : num_scope.
Notation "-~ a" := (nopp a) (at level 35, right associativity) : num_scope.
Notation "# n" := (nofZ n%Z) (at level 1, format "# n") : num_scope.

(** decimal literals: num/den with both exactly representable, e.g. 1.E-12 = 1/10^12; IEEE division
    rounds it exactly as the compiler rounds the literal. *)
Definition nlit {T} {N : Num T} (num : Z) (den : positive) : T := ndiv (nofZ num) (nofZ (Zpos den)).

(** Total-order laws of the comparisons on the values satisfying [P] (all reals; doubles that are
    not NaN).  It is a total preorder (-0. == +0.), so no Leibniz equality is concluded. *)
Record NumOrder {T} (N : Num T) (P : T -> Prop) : Prop := {
  no_irrefl : forall x, P x -> nltb x x = false;
  no_trans : forall x y z, P x -> P y -> P z -> nltb x y = true -> nltb y z = true -> nltb x z = true;
  no_negtrans : forall x y z, P x -> P y -> P z -> nltb x y = false -> nltb y z = false -> nltb x z = false;
  no_leb : forall x y, P x -> P y -> nleb x y = negb (nltb y x);
  no_eqb : forall x y, P x -> P y -> neqb x y = negb (nltb x y) && negb (nltb y x)
}.

(** ** Random numbers: [std::function<double()> rng] is a list of draws, consumed from the front. *)
Definition rand (T A : Type) : Type := list T -> res (A * list T).
Definition rret {T A} (a : A) : rand T A := fun ds => Ok (a, ds).
Definition rbind {T A B} (m : rand T A) (k : A -> rand T B) : rand T B :=
  fun ds => match m ds with
            | Ok (a, ds') => k a ds' | Throw => Throw | UB => UB | NoDraw => NoDraw end.
Definition rlift {T A} (m : res A) : rand T A := fun ds => let! a := m in Ok (a, ds).
Definition draw {T} : rand T T := fun ds => match ds with [] => NoDraw | d :: t => Ok (d, t) end.
Notation "'rlet!' x := m 'in' k" := (rbind m (fun x => k))
  (at level 200, x pattern, right associativity) : res_scope.

(** ** Standard algorithms *)
Section Algo.
  Context {T : Type} {N : Num T}.
  Local Open Scope num_scope.

  (** std::is_sorted with operator< : no element is less than its predecessor. *)
  Fixpoint is_sorted (l : list T) : bool :=
    match l with
    | a :: t => match t with
                | b :: _ => negb (b <~ a) && is_sorted t
                | [] => true
                end
    | [] => true
    end.

  (** std::adjacent_find(first,last) != last *)
  Fixpoint has_adjacent_equal (l : list T) : bool :=
    match l with
    | a :: t => match t with
                | b :: _ => (a ==~ b) || has_adjacent_equal t
                | [] => false
                end
    | [] => false
    end.

  (** std::lower_bound as libstdc++ computes it: binary search with [first] and [len]; the fuel
      bounds the number of halvings ([length v] always suffices, see L_Search). *)
  Fixpoint lower_bound_loop (fuel : nat) (v : list T) (first len : Z) (x : T) : res Z :=
    if (len <=? 0)%Z then Ok first else
    match fuel with
    | O => NoDraw
    | S f =>
        let half := (len / 2)%Z in
        let mid := (first + half)%Z in
        let! m := atZ v mid in
        if m <~ x then lower_bound_loop f v (mid + 1)%Z (len - half - 1)%Z x
        else lower_bound_loop f v first half x
    end.
  (** distance from begin() of [std::lower_bound(v.begin(), v.end(), x)] *)
  Definition lower_bound (v : list T) (x : T) : res Z :=
    lower_bound_loop (S (length v)) v 0%Z (sizeZ v) x.
  (** the same restricted to the iterator range [lo, hi) *)
  Definition lower_bound_range (v : list T) (lo hi : Z) (x : T) : res Z :=
    lower_bound_loop (S (length v)) v lo (hi - lo)%Z x.

  (** std::min / std::max / clamping idiom [if (x<lo) x=lo; else if (x>hi) x=hi;] *)
  Definition nmin (a b : T) : T := if b <~ a then b else a.
  Definition nmax (a b : T) : T := if a <~ b then b else a.

End Algo.
