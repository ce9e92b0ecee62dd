(** * What C120 says, without the model's functions *)
From Coq Require Import String List Bool Arith.
From Verif Require Import Base RunLog_Model.
Import ListNotations.
Open Scope nat_scope.

(** places in logged data *)
Inductive place := Key (k : string) | Idx (i : nat).

Definition lookup {A} (k : string) (l : list (string * A)) : option A :=
  option_map snd (find (fun p => String.eqb (fst p) k) l).

(** the value that an item has at a place, if any *)
Fixpoint value_at {V} (p : list place) (t : tree V) : option V :=
  match p, t with
  | [], TLeaf v => Some v
  | Key k :: p', TDict l => match lookup k l with Some t' => value_at p' t' | None => None end
  | Idx i :: p', TSeq _ l => match nth_error l i with Some t' => value_at p' t' | None => None end
  | _, _ => None
  end.

(** the history that the logger has there *)
Fixpoint history_at {N V} (p : list place) (a : acc N V) : list (N * V) :=
  match p, a with
  | [], AHist h => h
  | Key k :: p', ADict l => match lookup k l with Some a' => history_at p' a' | None => [] end
  | Idx i :: p', ASeq _ l => match nth_error l i with Some a' => history_at p' a' | None => [] end
  | _, _ => []
  end.

(** what it should be: the steps at which there was a value, with the values *)
Definition logged {N V} (p : list place) (log : list (N * tree V)) : list (N * V) :=
  flat_map (fun e => match value_at p (snd e) with Some v => [(fst e, v)] | None => [] end) log.

(** a fixed form of the items: at every place a leaf, a sequence of known length, or a
    dictionary; keys may come and go, and every place may be None *)
Inductive form := FLeaf | FSeq (n : nat) (f : nat -> form) | FDict (f : string -> form).
Inductive has_form {V} : form -> tree V -> Prop :=
| h_none f : has_form f TNone
| h_leaf v : has_form FLeaf (TLeaf v)
| h_seq b l n f : length l = n -> (forall i t, nth_error l i = Some t -> has_form (f i) t) ->
    has_form (FSeq n f) (TSeq b l)
| h_dict l f : NoDup (map fst l) -> (forall k t, In (k, t) l -> has_form (f k) t) ->
    has_form (FDict f) (TDict l).

Definition raises {A} (r : res A) : Prop := exists e, r = Err e.
