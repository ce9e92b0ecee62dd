(** * Names of logged values *)
From Coq Require Import String Ascii List Bool.
From Verif Require Import Base TBLog_Model.
Import ListNotations.
Open Scope string_scope.
Open Scope list_scope.

Section Spec.
  Variable V : Type.
  (** [at_path t p b v]: following the keys and positions [p] one arrives at the leaf [v]
      ([b]: it is a number). *)
  Inductive at_path : tree V -> list string -> bool -> V -> Prop :=
  | AtLeaf : forall b v, at_path (Leaf b v) [] b v
  | AtRe : forall a b, at_path (Cplx a b) ["re"] true a
  | AtIm : forall a b, at_path (Cplx a b) ["im"] true b
  | AtList : forall l i t p b v, nth_error l i = Some t -> at_path t p b v -> at_path (TList l) (show i :: p) b v
  | AtTuple : forall l i t p b v, nth_error l i = Some t -> at_path t p b v -> at_path (TTuple l) (show i :: p) b v
  | AtDict : forall l k t p b v, In (k, t) l -> at_path t p b v -> at_path (TDict l) (k :: p) b v
  | AtCompound : forall t p b v, at_path t p b v -> at_path (Compound t) p b v
  | AtHasDict : forall t p b v, at_path t p b v -> at_path (HasDict t) p b v.

  Definition no_slash (s : string) : Prop := ~ In "/"%char (list_ascii_of_string s).
  (** Keys are distinct in every dictionary, and contain no slash. *)
  Inductive good : tree V -> Prop :=
  | GoodNone : good TNone
  | GoodList : forall l, (forall t, In t l -> good t) -> good (TList l)
  | GoodTuple : forall l, (forall t, In t l -> good t) -> good (TTuple l)
  | GoodDict : forall l, NoDup (map fst l) -> (forall k t, In (k, t) l -> no_slash k /\ good t) -> good (TDict l)
  | GoodCompound : forall t, good t -> good (Compound t)
  | GoodHasDict : forall t, good t -> good (HasDict t)
  | GoodCplx : forall a b, good (Cplx a b)
  | GoodLeaf : forall b v, good (Leaf b v).

  (** "a/b/c" *)
  Definition tag (p : list string) : string := String.concat "/" p.
End Spec.
