(** * Local values <x|O|psi> / <x|psi> and their derivatives *)
From Coq Require Import List Arith ZArith Reals.
From Verif Require Import Base Rings ARNN_Model ToArray_Model Estim_Model Estim_Spec LocVal_Model.
Import ListNotations.

(** A batch of configurations of a space of [N] states with [size] sites. *)
Definition proper (size N : nat) (v : batch) : Prop :=
  ndim v = 2%nat /\ cols v = size /\ Forall (fun s => (s < N)%nat) (rows v).

(** [z] is <s|O|psi> / <s|psi>: the amplitude is not zero, being an exponential. *)
Definition is_local_value (N : nat) (O : nat -> nat -> cpx) (psi : nat -> cpx) (s : nat) (z : cpx) : Prop :=
  rmul cC z (psi s) = apply_op N O psi s.

(** entry (x, y) of a density matrix with logarithms [log_rho] *)
Definition rho_of (log_rho : nat -> nat -> cpx) (x y : nat) : cpx := psi_of (fun t => log_rho t y) x.

(** One value for every row. *)
Definition values_of (v : batch) (z : list cpx) (P : nat -> cpx -> Prop) : Prop :=
  Forall2 P (rows v) z.

(** The log-derivatives of a family of log-amplitudes at [x], for parameter [p]. *)
Definition derivative_of (log_psi : R -> nat -> cpx) (x : R) (der_log : nat -> row) (p : nat) : Prop :=
  forall s, cderiv (fun t => log_psi t s) x (nth p (der_log s) (r0 cC)).

(** Truth value of an argument. *)
Definition truth (f : flag) : bool := match f with FTrue => true | FFalse => false | FOther b => b end.
