(** * Common vocabulary: outcomes, list updates, integer ranges, sorting.

    Nothing in this file is specific to NetKet.  Library functions of numpy that
    several models need ([np.sort], [np.searchsorted], [np.arange]) are given here by
    their documented meaning. *)
From Coq Require Import ZArith List Bool Lia.
Import ListNotations.
Open Scope Z_scope.

(** Python exceptions that the modelled code can raise.  [Fault] stands for an
    out-of-bounds memory access in code compiled without bounds checks (numba). *)
Inductive exn :=
| ValueError | RuntimeError | TypeError | IndexError | KeyError | AttributeError
| UnboundLocalError | NotImplementedError | AssertionError | ZeroDivisionError
| Exception_ | Fault.

(** Outcome of a call: a value or an exception. *)
Inductive res (A : Type) :=
| Ok (a : A)
| Err (e : exn).
Arguments Ok {A} _.
Arguments Err {A} _.

Definition bind {A B} (r : res A) (f : A -> res B) : res B :=
  match r with Ok a => f a | Err e => Err e end.

Notation "'let?' x ':=' r 'in' b" := (bind r (fun x => b))
  (at level 200, x name, r at level 100, b at level 200).

Definition is_ok {A} (r : res A) : bool :=
  match r with Ok _ => true | Err _ => false end.

(** Evaluate a list of calls from left to right; the first exception escapes. *)
Fixpoint sequence {A} (l : list (res A)) : res (list A) :=
  match l with
  | [] => Ok []
  | r :: l' => let? a := r in let? t := sequence l' in Ok (a :: t)
  end.

(** [l[i] = v] on a list; indices past the end leave the list unchanged (callers are
    responsible for proving, or checking, that [i] is in range). *)
Fixpoint upd {A} (l : list A) (i : nat) (v : A) : list A :=
  match l, i with
  | [], _ => []
  | _ :: l', O => v :: l'
  | x :: l', S i' => x :: upd l' i' v
  end.

(** [0; 1; ...; n-1] as integers (np.arange). *)
Definition zrange (n : Z) : list Z := map Z.of_nat (seq 0 (Z.to_nat n)).

(** np.sort on integers (insertion sort). *)
Fixpoint zinsert (x : Z) (l : list Z) : list Z :=
  match l with
  | [] => [x]
  | y :: l' => if x <=? y then x :: l else y :: zinsert x l'
  end.

Fixpoint np_sort (l : list Z) : list Z :=
  match l with [] => [] | x :: l' => zinsert x (np_sort l') end.

(** np.searchsorted(l, x) (side="left") on a sorted array: the first position whose
    element is >= x, or len(l). *)
Fixpoint searchsorted (l : list Z) (x : Z) : nat :=
  match l with
  | [] => O
  | y :: l' => if x <=? y then O else S (searchsorted l' x)
  end.

(** Two's complement wrap-around of numpy/numba int64 arithmetic. *)
Definition wrap64 (z : Z) : Z := (z + 2 ^ 63) mod 2 ^ 64 - 2 ^ 63.

Definition zsum (l : list Z) : Z := fold_right Z.add 0 l.
Definition zprod (l : list Z) : Z := fold_right Z.mul 1 l.

(** Python list equality of integer lists. *)
Fixpoint zlist_eqb (a b : list Z) : bool :=
  match a, b with
  | [], [] => true
  | x :: a', y :: b' => (x =? y) && zlist_eqb a' b'
  | _, _ => false
  end.
