(** * Random samples of a variational state *)
From Coq Require Import List Arith Bool Reals.
From Verif Require Import Base Rings ARNN_Model ToArray_Model Estim_Model Estim_Spec Balance_Spec LegQsr_Spec.
Import ListNotations.
Open Scope R_scope.

(** A random experiment: outcomes with their probabilities.  Every outcome is a list of
    [total] configurations. *)
Definition experiment := list (R * list nat).
Definition mean_over (E : experiment) (f : list nat -> R) : R := rsum (fun o => fst o * f (snd o)) E.
Definition mean_over_c (E : experiment) (f : list nat -> cpx) : cpx :=
  (mean_over E (fun l => fst (f l)), mean_over E (fun l => snd (f l))).
Definition sized (N total : nat) (E : experiment) : Prop :=
  Forall (fun o => length (snd o) = total /\ Forall (fun s => (s < N)%nat) (snd o)) E /\ rsum fst E = 1.
(** Every single sample follows the Born distribution (the samples may depend on each other). *)
Definition stationary (N total : nat) (log_psi : nat -> cpx) (E : experiment) : Prop :=
  forall i s, (i < total)%nat -> (s < N)%nat ->
    probability E (fun w => (nth i w 0 =? s)%nat) = born N (psi_of log_psi) s.
(** Any two samples are independent. *)
Definition uncorrelated (N total : nat) (log_psi : nat -> cpx) (E : experiment) : Prop :=
  forall i j s t, (i < total)%nat -> (j < total)%nat -> i <> j -> (s < N)%nat -> (t < N)%nat ->
    probability E (fun w => (nth i w 0 =? s)%nat && (nth j w 0 =? t)%nat)
    = born N (psi_of log_psi) s * born N (psi_of log_psi) t.
(** <O^dagger O> - |<O>|^2 *)
Definition quantum_variance (N : nat) (O : nat -> nat -> cpx) (psi : nat -> cpx) : R :=
  fst (expectation N (dagger_times N O) psi) - cnorm2 (expectation N O psi).
(** O psi is a multiple of psi. *)
Definition eigenstate (N : nat) (O : nat -> nat -> cpx) (psi : nat -> cpx) (e : cpx) : Prop :=
  forall s, (s < N)%nat -> apply_op N O psi s = rmul cC e (psi s).
