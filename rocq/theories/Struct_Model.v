(** * Dataclasses with cached properties (netket/utils/struct/dataclass.py)

    An object has pytree fields [data], other fields [meta] and a cache for each cached
    property.  The method behind a property reads the fields and may access other cached
    properties of the same object, return or raise. *)
From Coq Require Import List.
From Verif Require Import Base.
Import ListNotations.

Section S.
  Variables D M V : Type.
  Inductive method :=
  | Ret (v : V) | Raise (e : exn) | Access (i : nat) (k : V -> method).
  (** The methods of the class, and [__pre_init__] (the identity if there is none). *)
  Variable meth : nat -> D -> M -> method.
  Variable pre_init : D * M -> D * M.

  Record obj := Obj { data : D; meta : M; cache : nat -> option V }.
  Definition no_cache : nat -> option V := fun _ => None.
  Definition set_cache (o : obj) (i : nat) (v : V) : obj :=
    Obj (data o) (meta o) (fun j => if Nat.eqb i j then Some v else cache o j).

  (** 186-208: the property accessor.  [None]: the methods have not returned after [fuel]
      nested accesses. *)
  Fixpoint access (fuel : nat) (o : obj) (i : nat) : option (res V * obj) :=
    match fuel with
    | O => None
    | S fuel =>
        match cache o i with
        | Some v => Some (Ok v, o)
        | None =>
            let run := fix run (o : obj) (m : method) : option (res V * obj) :=
              match m with
              | Ret v => Some (Ok v, o)
              | Raise e => Some (Err e, o)
              | Access j k =>
                  match access fuel o j with
                  | None => None
                  | Some (Err e, o) => Some (Err e, o)
                  | Some (Ok v, o) => run o (k v)
                  end
              end in
            match run o (meth i (data o) (meta o)) with
            | Some (Ok v, o) => Some (Ok v, set_cache o i v)
            | r => r
            end
        end
    end.

  (** 270-314: the constructor; the caches start uninitialised. *)
  Definition new (d : D) (m : M) : obj := let '(d, m) := pre_init (d, m) in Obj d m no_cache.
  (** 411-417: replace() resets the caches and calls the constructor. *)
  Definition replace (o : obj) (f : D * M -> D * M) : obj := let '(d, m) := f (data o, meta o) in new d m.
  (** 449-469: from_state_dict replaces pytree fields. *)
  Definition from_state_dict (o : obj) (d : D) : obj := replace o (fun f => (d, snd f)).
  (** 422-431: jax.tree_map; flattening keeps the caches with the other fields, unflattening
      skips [__pre_init__] and passes the caches to the constructor. *)
  Definition tree_map (o : obj) (g : D -> D) : obj := Obj (g (data o)) (meta o) (cache o).
  (** 422-425: the part of a flattened object that jax compares; [n] cached properties. *)
  Definition tree_structure (n : nat) (o : obj) : M * list (option V) := (meta o, map (cache o) (seq 0 n)).

  Inductive op :=
  | ONew (d : D) (m : M)
  | OAccess (p : nat) (fuel i : nat)
  | OReplace (p : nat) (f : D * M -> D * M)
  | OState (p : nat) (d : D)
  | OTree (p : nat) (g : D -> D).
  (** The program holds references to objects, by position; an access fills caches in place. *)
  Definition step (heap : list obj) (o : op) : list obj :=
    match o with
    | ONew d m => heap ++ [new d m]
    | OAccess p fuel i =>
        match nth_error heap p with
        | None => heap
        | Some x => match access fuel x i with Some (_, x') => upd heap p x' | None => heap end
        end
    | OReplace p f => match nth_error heap p with Some x => heap ++ [replace x f] | None => heap end
    | OState p d => match nth_error heap p with Some x => heap ++ [from_state_dict x d] | None => heap end
    | OTree p g => match nth_error heap p with Some x => heap ++ [tree_map x g] | None => heap end
    end.
End S.
Arguments Ret {V}.
Arguments Raise {V}.
Arguments Access {V}.
Arguments Obj {D M V}.
Arguments data {D M V}.
Arguments meta {D M V}.
Arguments cache {D M V}.
Arguments ONew {D M}.
Arguments OAccess {D M}.
Arguments OReplace {D M}.
Arguments OState {D M}.
Arguments OTree {D M}.
