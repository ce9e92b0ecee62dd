(** * What the state vector of a wave function is *)
From Coq Require Import List Arith Reals.
From Verif Require Import ToArray_Model.
Import ListNotations.
Open Scope R_scope.

(** The amplitude with the given logarithm. *)
Definition amplitude_of (log_psi : nat -> R * R) (i : nat) : R * R :=
  (exp (fst (log_psi i)) * cos (snd (log_psi i)), exp (fst (log_psi i)) * sin (snd (log_psi i))).

Definition norm_squared (psi : list (R * R)) : R :=
  fold_right (fun z s => fst z * fst z + snd z * snd z + s) 0 psi.

Definition scaled (c : R) (psi : list (R * R)) : list (R * R) := map (fun z => (c * fst z, c * snd z)) psi.

(** Every rank but the last one has only real states to evaluate. *)
Definition one_padded_rank (n_states n_nodes : nat) : Prop :=
  (ceil_nat n_states n_nodes * (n_nodes - 1) <= n_states)%nat.

(** Sum of the diagonal entries of a matrix given by its rows. *)
Definition entry_of (rho : list (list (R * R))) (i j : nat) : R * R := nth j (nth i rho []) (0, 0).
Fixpoint diagonal_sum (L : nat) (rho : list (list (R * R))) : R * R :=
  match L with
  | O => (0, 0)
  | S k => (fst (diagonal_sum k rho) + fst (entry_of rho k k), snd (diagonal_sum k rho) + snd (entry_of rho k k))
  end.
(** Product of complex numbers. *)
Definition times (c z : R * R) : R * R := (fst c * fst z - snd c * snd z, fst c * snd z + snd c * fst z).
