(** * What reductions over ranks are expected to do *)
From Coq Require Import Decimal DecimalString.
From Coq Require Import String Ascii List ZArith NArith Bool.
From Verif Require Import Base MpiPrim_Model.
Import ListNotations.
Open Scope nat_scope.

(** The elements of an array lie [s] apart *)
Definition spaced (s : Z) (v : view) : Prop :=
  positions (axes v) (offset v) = map (fun k => offset v + Z.of_nat k * s)%Z (seq 0 (size v)).
Definition consecutive (v : view) : Prop := spaced 1 v.

Section Spec.
  Context {A : Type}.
  Variable junk : A.
  Variable op : A -> A -> A.
  Fixpoint total (xs : list A) : A :=
    match xs with
    | [] => junk
    | [x] => x
    | x :: xs => op x (total xs)
    end.
  (** what a rank contributes *)
  Definition content (r : list A * arg A) : list A :=
    match snd r with Array v => values junk (fst r) v | Other _ vals => vals end.
  (** [n] elements, consecutive in the memory and writable, or newly made *)
  Definition fit (n : nat) (r : list A * arg A) : Prop :=
    match snd r with
    | Array v => consecutive v /\ size v = n /\ writable v = true /\ (0 <= offset v)%Z /\ Z.to_nat (offset v) + n <= length (fst r)
    | Other shape vals => fold_right Nat.mul 1 shape = n /\ length vals = n
    end.
  (** element [k] of the reduced array *)
  Definition sum_at (ranks : list (list A * arg A)) (k : nat) : A := total (map (fun r => nth k (content r) junk) ranks).
  Definition is_sum (n : nat) (ranks : list (list A * arg A)) (vals : list A) : Prop :=
    length vals = n /\ forall k, k < n -> nth k vals junk = sum_at ranks k.
  (** The memory afterwards: where the array was, the sum; for other arguments, the memory
      of the caller is as it was, and the sum is new. *)
  Definition stored (n : nat) (ranks : list (list A * arg A)) (r : list A * arg A) (mem : list A) : Prop :=
    match snd r with
    | Array v => length mem = length (fst r) /\
        forall p, nth p mem junk =
          if (Z.to_nat (offset v) <=? p) && (p <? Z.to_nat (offset v) + n) then sum_at ranks (p - Z.to_nat (offset v)) else nth p (fst r) junk
    | Other _ _ => firstn (length (fst r)) mem = fst r
    end.
End Spec.

(** ** versions *)
Local Open Scope string_scope.
(** numbers with dots in between *)
Fixpoint dotted (ns : list N) : string :=
  match ns with
  | [] => ""
  | [n] => NilZero.string_of_uint (N.to_uint n)
  | n :: ns => NilZero.string_of_uint (N.to_uint n) ++ "." ++ dotted ns
  end.
(** what may follow: nothing, or something that starts with neither a digit nor a dot, or
    such a thing after a dot *)
Definition suffix (s : string) : Prop :=
  s = "" \/ (exists c t, s = String c t /\ allowed c = false) \/ (exists c t, s = String "." (String c t) /\ allowed c = false).
(** order of versions *)
Fixpoint older (a b : list N) : Prop :=
  match a, b with
  | _, [] => False
  | [], _ => True
  | x :: a, y :: b => (x < y)%N \/ (x = y /\ older a b)
  end.
