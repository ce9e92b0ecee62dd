(** * What JsonLog is expected to keep on disk (C54) *)
From Coq Require Import List ZArith.
From Verif Require Import JsonLog_Model.
Import ListNotations.
Open Scope Z_scope.

Section Spec.
  Context {A V : Type}.
  (** Everything logged by a list of operations; the variables shown to them. *)
  Definition logged (ops : list (jop A V)) : list (Z * A) :=
    flat_map (fun o => match o with JCall step x _ _ _ _ => [(step, x)] | JFlush _ _ _ => [] end) ops.
  Definition n_calls (ops : list (jop A V)) : nat := length (logged ops).

  (** [d] is a complete record of everything that the operations [ops] logged, but for at
      most [lost] items at the end. *)
  Definition record_of (d : list (Z * A)) (ops : list (jop A V)) (lost : Z) : Prop :=
    exists rest, logged ops = d ++ rest /\ Z.of_nat (length rest) <= lost.

  (** [v] are the variables shown by an operation followed by at most [lost] calls. *)
  Definition recent (v : V) (ops : list (jop A V)) (lost : Z) : Prop :=
    exists before o after, ops = before ++ o :: after /\
      match o with JCall _ _ w _ _ _ => w = v | JFlush w _ _ => w = Some v end /\
      Z.of_nat (n_calls after) <= lost.
End Spec.
