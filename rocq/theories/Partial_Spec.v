(** * When two partial functions may be identified *)
From Coq Require Import List Arith ZArith Bool Permutation.
From Verif Require Import Base Partial_Model.
Import ListNotations.

(** [==] holds. *)
Definition equal (a b : hpartial) : Prop := hp_eq a b = Ok true.
(** A dictionary has every key once. *)
Definition proper (a : hpartial) : Prop := f_code (p_func a) <> None /\ NoDup (map fst (p_kw a)).
(** Python's rules for hashes: equal values have equal hashes, the hash of a set does not
    depend on the order of its elements. *)
Definition hash_rules (hv : value -> Z) (hset : list Z -> Z) : Prop :=
  (forall a b, veqb a b = true -> hv a = hv b) /\ (forall l l', Permutation l l' -> hset l = hset l').
(** Two partials that give the same result for every call. *)
Definition same_function {result} run_code (a b : hpartial) : Prop :=
  forall args kw, hp_call result run_code a args kw = hp_call result run_code b args kw.
(** Capturing nothing, as a function defined at the top level of a module. *)
Definition captures_nothing (a : hpartial) : Prop := f_captured (p_func a) = [].
(** The same entries, up to [==] of the values and the order. *)
Definition same_dict (a b : dict) : Prop := forall k,
  match dget k a, dget k b with Some v, Some v' => veqb v v' = true | None, None => True | _, _ => False end.
(** The code does not distinguish 2 from 2.0, nor the order of keyword arguments. *)
Definition respects {result} (run_code : option nat -> list value -> list value -> dict -> result) : Prop :=
  forall c cap args args' kw kw', leqb args args' = true -> same_dict kw kw' ->
    run_code c cap args kw = run_code c cap args' kw'.
(** All partials in a list of calls that are equal capture the same values. *)
Definition consistent (l : list hpartial) : Prop :=
  forall a b, In a l -> In b l -> equal a b -> f_captured (p_func a) = f_captured (p_func b).
