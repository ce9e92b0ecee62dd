(** * Properties without caches (C57, C63) *)
From Coq Require Import List.
From Verif Require Import Base Struct_Model.
Import ListNotations.

Section Spec.
  Context {D M V : Type}.
  Variable meth : nat -> D -> M -> method V.
  (** The value of a property computed from the fields, with nothing remembered. *)
  Fixpoint recompute (fuel : nat) (d : D) (m : M) (i : nat) : option (res V) :=
    match fuel with
    | O => None
    | S fuel =>
        let run := fix run (p : method V) : option (res V) :=
          match p with
          | Ret v => Some (Ok v)
          | Raise e => Some (Err e)
          | Access j k => match recompute fuel d m j with
                          | None => None
                          | Some (Err e) => Some (Err e)
                          | Some (Ok v) => run (k v)
                          end
          end in
        run (meth i d m)
    end.
  Definition current (o : obj D M V) (i : nat) (r : res V) : Prop := exists n, recompute n (data o) (meta o) i = Some r.
  Definition is_tree (o : op D M) : bool := match o with OTree _ _ => true | _ => false end.
End Spec.
