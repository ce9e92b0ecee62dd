(** * What optimisation with the drivers is expected to do *)
From Coq Require Import List Arith Bool Reals.
From Verif Require Import Base Rings ARNN_Model ToArray_Model Estim_Model Estim_Spec QGT_Model QGT_Spec Solve_Spec.
Import ListNotations.
Open Scope R_scope.

(** The state with parameters p + t v; real parameters move along the real axis *)
Definition moved (ls : leaves) (p v : nat -> cpx) (t : R) : nat -> cpx :=
  fun k => if flag ls k then radd cC (p k) (rscal t (v k)) else (fst (p k) + t * fst (v k), snd (p k)).
(** log psi of [N] basis states has at [p] the derivatives [jx k s] (along the real part of
    parameter [k]) and [jy k s] (imaginary part), and is differentiable in every direction *)
Definition differentiable (ls : leaves) (N : nat) (log_psi : (nat -> cpx) -> nat -> cpx) (p : nat -> cpx) (jx jy : nat -> nat -> cpx) : Prop :=
  forall v s, (s < N)%nat ->
    cderiv (fun t => log_psi (moved ls p v t) s) 0
      (fsum cC (n_pars ls) (fun k => radd cC (rscal (fst (v k)) (jx k s)) (if flag ls k then rscal (snd (v k)) (jy k s) else (0, 0)))).
(** Energy of the state with given parameters *)
Definition energy_of (N : nat) (O : nat -> nat -> cpx) (log_psi : (nat -> cpx) -> nat -> cpx) (p : nat -> cpx) : R :=
  fst (expectation N O (psi_of (log_psi p))).
(** The forces of C49 for each parameter, all configurations sampled *)
Definition forces (ls : leaves) (N : nat) (conn : nat -> list (nat * cpx)) (log_psi : (nat -> cpx) -> nat -> cpx)
    (jx jy : nat -> nat -> cpx) (p : nat -> cpx) (k : nat) : cpx :=
  let samples := full_sampling N (psi_of (log_psi p)) in
  if flag ls k then
    grad_complex (log_psi p) conn samples (fun s => fst (jx k s)) (fun s => fst (jy k s)) (fun s => snd (jx k s)) (fun s => snd (jy k s))
  else (grad_real (log_psi p) conn samples (fun s => fst (jx k s)) (fun s => snd (jx k s)), 0).
(** Some force does not vanish *)
Definition not_stationary (ls : leaves) (F : nat -> cpx) : Prop :=
  exists k, (k < n_pars ls)%nat /\ (fst (F k) <> 0 \/ (flag ls k = true /\ snd (F k) <> 0)).
(** Entries of real parameters are real *)
Definition proper (ls : leaves) (p : nat -> cpx) : Prop := forall k, flag ls k = false -> snd (p k) = 0.
(** A state that samples every configuration with its weight: the mean energy and the forces *)
Definition exact_state (ls : leaves) (N : nat) (conn : nat -> list (nat * cpx)) (log_psi : (nat -> cpx) -> nat -> cpx)
    (jx jy : (nat -> cpx) -> nat -> nat -> cpx) (q : nat -> cpx) : res (R * (nat -> cpx)) :=
  Ok (fst (expect false (log_psi q) conn (full_sampling N (psi_of (log_psi q)))), forces ls N conn log_psi (jx q) (jy q) q).
