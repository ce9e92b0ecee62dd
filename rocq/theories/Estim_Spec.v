(** * Expectation values and their derivatives *)
From Coq Require Import List Arith Reals.
From Verif Require Import Rings ARNN_Model ToArray_Model Estim_Model.
Import ListNotations.
Open Scope R_scope.

(** Amplitude with logarithm u + i v. *)
Definition psi_of (log_psi : nat -> cpx) (s : nat) : cpx :=
  (exp (fst (log_psi s)) * cos (snd (log_psi s)), exp (fst (log_psi s)) * sin (snd (log_psi s))).

(** <psi|psi>, <psi|O|psi> and |O psi|^2 on a space of [N] basis states. *)
Definition norm2_of (N : nat) (psi : nat -> cpx) : R :=
  fst (fsum cC N (fun s => rmul cC (rconj cC (psi s)) (psi s))).
Definition apply_op (N : nat) (O : nat -> nat -> cpx) (psi : nat -> cpx) (s : nat) : cpx :=
  fsum cC N (fun t => rmul cC (O s t) (psi t)).
Definition braket (N : nat) (phi chi : nat -> cpx) : cpx :=
  fsum cC N (fun s => rmul cC (rconj cC (phi s)) (chi s)).
Definition over (z : cpx) (r : R) : cpx := (fst z / r, snd z / r).
(** <psi|O|psi> / <psi|psi> *)
Definition expectation (N : nat) (O : nat -> nat -> cpx) (psi : nat -> cpx) : cpx :=
  over (braket N psi (apply_op N O psi)) (norm2_of N psi).

(** The connected states and matrix elements describe the rows of the operator (a state
    may be listed several times, or with matrix element zero). *)
Definition describes (N : nat) (O : nat -> nat -> cpx) (conn : nat -> list (nat * cpx)) : Prop :=
  forall s, (s < N)%nat -> Forall (fun c => (fst c < N)%nat) (conn s) /\
    forall t, (t < N)%nat ->
      lsum cC (map snd (filter (fun c => fst c =? t)%nat (conn s))) = O s t.

Definition hermitian (N : nat) (O : nat -> nat -> cpx) : Prop :=
  forall s t, (s < N)%nat -> (t < N)%nat -> O s t = rconj cC (O t s).

(** Full sampling: every configuration, weighted with its Born probability. *)
Definition born (N : nat) (psi : nat -> cpx) (s : nat) : R := cnorm2 (psi s) / norm2_of N psi.
Definition full_sampling (N : nat) (psi : nat -> cpx) : list (R * nat) :=
  map (fun s => (born N psi s, s)) (seq 0 N).

(** Fraction of the samples equal to [s]. *)
Definition fraction (samples : list nat) (s : nat) : R :=
  INR (count_occ Nat.eq_dec samples s) / INR (length samples).

(** The matrix O^dagger O. *)
Definition dagger_times (N : nat) (O : nat -> nat -> cpx) (s t : nat) : cpx :=
  fsum cC N (fun u => rmul cC (rconj cC (O u s)) (O u t)).

(** Derivative of a complex-valued function of a real variable. *)
Definition cderiv (f : R -> cpx) (x : R) (l : cpx) : Prop :=
  derivable_pt_lim (fun t => fst (f t)) x (fst l) /\ derivable_pt_lim (fun t => snd (f t)) x (snd l).
