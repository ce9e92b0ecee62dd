(** * What direct sampling should do *)
From Coq Require Import List Arith ZArith QArith.
From Verif Require Import Base ARSamp_Model.
Import ListNotations.
Open Scope Q_scope.

Fixpoint qsum (l : list Q) : Q := match l with [] => 0 | x :: l => x + qsum l end.

Definition weights (p : list Q) : Prop := Forall (fun x => 0 <= x) p /\ 0 < qsum p.
Definition draw (u : Q) : Prop := 0 <= u < 1.

(** The draws belonging to index [i]: an interval from the sum of the probabilities
    before [i] to the sum including [i]; its length is the probability of [i].  The
    left end belongs to the interval only for [i = 0]. *)
Definition lower (p : list Q) (i : nat) : Q := qsum (firstn i p) / qsum p.
Definition upper (p : list Q) (i : nat) : Q := qsum (firstn (S i) p) / qsum p.
Definition selects (p : list Q) (i : nat) (u : Q) : Prop :=
  (lower p i < u \/ (i = O /\ u == 0)) /\ u <= upper p i.

(** [i] is the probability of index [i]. *)
Definition probability (p : list Q) (i : nat) : Q := nth i p 0 / qsum p.

(** The conditional probabilities of a site only depend on the sites before it. *)
Definition autoregressive (n : nat) (cond : list Z -> list (list Q)) : Prop :=
  forall s t i, length s = n -> length t = n -> (i < n)%nat -> firstn i s = firstn i t ->
    nth i (cond s) [] = nth i (cond t) [].

(** Every site of a configuration of allowed values gets proper conditional probabilities. *)
Definition proper (n : nat) (local_states : list Z) (cond : list Z -> list (list Q)) : Prop :=
  forall s i, length s = n -> (i < n)%nat ->
    length (nth i (cond s) []) = length local_states /\ weights (nth i (cond s) []).
