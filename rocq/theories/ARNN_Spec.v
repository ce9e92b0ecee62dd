(** * Normalisation of autoregressive wave functions *)
From Coq Require Import List Arith ZArith Reals.
From Verif Require Import Base ARNN_Model.
Import ListNotations.
Open Scope R_scope.

(** |psi|^2 of what the model returns for a configuration; calls that fail count zero. *)
Definition born (log_psi : res (R * R)) : R :=
  match log_psi with Ok z => exp (2 * fst z) | Err _ => 0 end.

(** The local states of a spin space are -(n-1), -(n-3), ..., n-1, those of a Fock
    space 0, ..., n-1. *)
Definition local_state (h : hspace) (v : Z) : Prop :=
  match h with
  | HSpin n => exists k, (k < n)%nat /\ v = (2 * Z.of_nat k - Z.of_nat n + 1)%Z
  | HFock n | HOther n => exists k, (k < n)%nat /\ v = Z.of_nat k
  end.

(** The position of a local state in increasing order. *)
Definition position (h : hspace) (v : Z) (k : nat) : Prop :=
  match h with
  | HSpin n => (k < n)%nat /\ v = (2 * Z.of_nat k - Z.of_nat n + 1)%Z
  | HFock n | HOther n => (k < n)%nat /\ v = Z.of_nat k
  end.

Definition configuration (h : hspace) (n_sites : nat) (s : list Z) : Prop :=
  length s = n_sites /\ Forall (local_state h) s.

(** [space] lists the configurations of the space, each once. *)
Definition enumerates (h : hspace) (n_sites : nat) (space : list (list Z)) : Prop :=
  NoDup space /\ forall s, In s space <-> configuration h n_sites s.

Fixpoint total {X} (f : X -> R) (l : list X) : R :=
  match l with [] => 0 | x :: l => f x + total f l end.
Fixpoint product (n : nat) (f : nat -> R) : R :=
  match n with O => 1 | S n => product n f * f n end.
