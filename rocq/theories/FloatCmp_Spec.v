(** What C84 means, independently of the implementation. *)
From Coq Require Import List ZArith QArith Qabs.
From Verif Require Import FloatCmp_Model.
Import ListNotations.
Open Scope Q_scope.

(** [n] is an integer nearest to [x]. *)
Definition nearest (x : Q) (n : Z) : Prop := Qabs (x - inject_Z n) <= 1 # 2.
(** A number on the mesh of the bins: a multiple of 1/3326400. *)
Definition on_mesh (x : Q) (k : Z) : Prop := x * inject_Z 3326400 == inject_Z k.
(** Width of a bin. *)
Definition width : Q := 1 # 3326400.
(** Real and imaginary parts of the entries, small ones replaced by zero, the others as they
    were. *)
Definition cleaned (tol a b : Q) : Prop := (Qabs a <= tol -> b == 0) /\ (tol < Qabs a -> b == a).
