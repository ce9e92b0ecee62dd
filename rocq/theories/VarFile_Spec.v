(** * Loading what was saved *)
From Coq Require Import String List ZArith Bool.
From Verif Require Import Base StateLog_Model StateLog_Spec VarFile_Model.
Import ListNotations.
Open Scope string_scope.
Open Scope list_scope.

(** The file 7.mpack is the one StateLog calls [FNum 7], and only that one. *)
Definition spelling (spell : fname -> string) : Prop :=
  forall n z, spell n = (str_int z ++ ".mpack")%string <-> n = FNum z.
(** [variables] has the structure of [v], so that flax reads [v] back. *)
Definition reads_back {T B} (from_bytes : T -> B -> res T) (to_bytes : T -> B) (variables v : T) : Prop :=
  from_bytes variables (to_bytes v) = Ok v.
(** Nothing in the folder is called just "7". *)
Definition no_bare (spell : fname -> string) {C} (l : list (fname * C)) (z : Z) : Prop :=
  forall n c, In (n, c) l -> spell n <> str_int z.
