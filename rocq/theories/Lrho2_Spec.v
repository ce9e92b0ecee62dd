(** * The cost |L rho|^2 / |rho|^2 *)
From Coq Require Import List Arith Reals Bool.
From Verif Require Import Base Rings ARNN_Model ToArray_Model Estim_Model Estim_Spec JaxUtils_Model Lrho2_Model.
Open Scope R_scope.

(** The density matrix as a vector [rho] of [N] numbers, [L] a matrix on these. *)
Definition cost (N : nat) (L : nat -> nat -> cpx) (rho : nat -> cpx) : R :=
  norm2_of N (apply_op N L rho) / norm2_of N rho.

Definition real_matrix (N : nat) (L : nat -> nat -> cpx) : Prop :=
  forall s t, (s < N)%nat -> (t < N)%nat -> snd (L s t) = 0.
Definition real_elements (N : nat) (conn : nat -> list (nat * cpx)) : Prop :=
  forall s c, (s < N)%nat -> In c (conn s) -> snd (snd c) = 0.
Definition real_log (log_psi : nat -> cpx) : Prop := forall s, snd (log_psi s) = 0.

(** The derivatives of the log-amplitude with respect to the real and imaginary part of
    the parameter are those automatic differentiation is asked for. *)
Definition derivs_of (gx gy : nat -> cpx) : derivs :=
  Derivs (fun s => fst (gx s)) (fun s => fst (gy s)) (fun s => snd (gx s)) (fun s => snd (gy s)).

(** Born average of the logarithmic derivative. *)
Definition mean_log_derivative (N : nat) (rho g : nat -> cpx) : cpx :=
  over (fsum cC N (fun s => rmul cC (cnorm2 (rho s), 0) (g s))) (norm2_of N rho).

(** The quantity an estimator estimates, for an operator. *)
Inductive quantity := QOperator | QSquare.
Definition asked (op : operator_) : quantity := match op with Plain _ _ => QOperator | SquaredOf _ => QSquare end.
Definition estimated (e : estimator) : quantity :=
  match e with EHermitian => QOperator | ELrho2 => QSquare | EValue => QOperator | ESquare => QSquare end.
