(** * Vocabulary for old names *)
From Coq Require Import String List ZArith QArith Bool.
From Verif Require Import Base Lattice_Model LatGen_Model LatGen_Spec Compat_Model.
Import ListNotations.
Open Scope nat_scope.

(** Warnings are recorded, and not errors. *)
Definition recording {S} (msg : string) (w : list string * S) : (list string * S) * option exn := ((fst w ++ [msg], snd w), None).
(** A function which does not look at the record. *)
Definition lifted {S V} (f : @fn S V) : @fn (list string * S) V :=
  fun args kw w => let '(s, r) := f args kw (snd w) in ((fst w, s), r).
(** Warnings are errors. *)
Definition raising {S} (e : exn) (msg : string) (w : S) : S * option exn := (w, Some e).

(** The value of the first parameter, called [argname], in a call. *)
Definition first_parameter {V} (argname : string) (args : list V) (kw : list (string * V)) : option V :=
  match args with a :: _ => Some a | [] => lookup argname kw end.

(** A module attribute which is a file of the module, is public and is not to be ignored. *)
Definition hidden {V} (files ignore : list string) (m : list (string * V)) (name : string) : Prop :=
  In (name ++ ".py")%string files /\ is_private name = false /\ ~ In name ignore /\ lookup name m <> None.
