(** * Time evolution *)
From Coq Require Import List Arith Reals.
From Verif Require Import Rings ARNN_Model ToArray_Model Estim_Model Estim_Spec.
Import ListNotations.
Open Scope R_scope.

(** [psi] is a solution of d psi / dt = f(psi) between [a] and [b]. *)
Definition solution (N : nat) (f : (nat -> cpx) -> nat -> cpx) (a b : R) (psi : R -> nat -> cpx) : Prop :=
  forall t i, a <= t <= b -> (i < N)%nat -> cderiv (fun s => psi s i) t (f (psi t) i).

(** Right-hand sides of the Schroedinger equation in real and imaginary time (the latter for
    a normalised state). *)
Definition schroedinger (N : nat) (H : nat -> nat -> cpx) (psi : nat -> cpx) (i : nat) : cpx :=
  rmul cC (0, -1) (apply_op N H psi i).
Definition mean_of (N : nat) (O : nat -> nat -> cpx) (psi : nat -> cpx) : cpx := braket N psi (apply_op N O psi).

(** The product of two operators, and their commutator. *)
Definition times (N : nat) (A B : nat -> nat -> cpx) : nat -> nat -> cpx :=
  fun i j => fsum cC N (fun k => rmul cC (A i k) (B k j)).
Definition commutator (N : nat) (A B : nat -> nat -> cpx) : nat -> nat -> cpx :=
  fun i j => rsub cC (times N A B i j) (times N B A i j).
Definition commute (N : nat) (A B : nat -> nat -> cpx) : Prop :=
  forall i j, (i < N)%nat -> (j < N)%nat -> times N A B i j = times N B A i j.

(** Variance of an observable in a normalised state: |(O - <O>) psi|^2. *)
Definition spread (N : nat) (O : nat -> nat -> cpx) (psi : nat -> cpx) : R :=
  norm2_of N (fun i => rsub cC (apply_op N O psi i) (rmul cC (mean_of N O psi) (psi i))).

(** A flow in time: evolution by 0 does nothing, evolutions add up. *)
Definition is_flow (flow : R -> (nat -> cpx) -> nat -> cpx) : Prop :=
  (forall y, flow 0 y = y) /\ forall s t y, flow (s + t) y = flow t (flow s y).

(** Integration steps that follow the flow exactly. *)
Definition exact_steps (flow : R -> (nat -> cpx) -> nat -> cpx)
  (impl : nat -> R -> (nat -> cpx) -> R -> option (R * (nat -> cpx))) : Prop :=
  forall k t y b t' y', t < b -> impl k t y b = Some (t', y') -> t < t' <= b /\ y' = flow (t' - t) y.
