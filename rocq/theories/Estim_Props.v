From Coq Require Import List Arith Reals.
From Verif Require Import Rings ARNN_Model ToArray_Model Estim_Model Estim_Spec Estim_Proofs.
Import ListNotations.
Open Scope R_scope.

(** C48.  Weighting every configuration with its Born probability, the mean of the local
    values is <psi|O|psi>/<psi|psi>, whichever connected states with repeated or zero
    matrix elements describe the operator. *)
Theorem C48_expectation : forall N O conn log_psi, describes N O conn ->
  expect false log_psi conn (full_sampling N (psi_of log_psi)) = expectation N O (psi_of log_psi).
Proof. exact expect_full. Qed.
Print Assumptions C48_expectation.

(** For the square of an operator: <psi|O^dagger O|psi>/<psi|psi>. *)
Theorem C48_squared : forall N O conn log_psi, describes N O conn ->
  expect true log_psi conn (full_sampling N (psi_of log_psi)) = expectation N (dagger_times N O) (psi_of log_psi).
Proof. exact squared_main. Qed.
Print Assumptions C48_squared.

(** The estimate from any samples weighs every configuration with the fraction of
    samples equal to it, so it is the exact value when the fractions are the Born
    probabilities. *)
Theorem C48_samples : forall N squared log_psi conn samples, Forall (fun s => (s < N)%nat) samples ->
  expect squared log_psi conn (uniform samples)
  = fsum cC N (fun s => rscal (fraction samples s)
      ((if squared then local_value_squared else local_value) log_psi s (conn s))).
Proof. exact samples_main. Qed.
Print Assumptions C48_samples.

(** C49, a complex parameter x + i y: the force is (dE/dx + i dE/dy) / 2, the derivative
    with respect to the conjugate parameter, for wave functions holomorphic or not. *)
Theorem C49_complex : forall N O conn (log_psi : R -> R -> nat -> cpx) x y (gx gy : nat -> cpx),
  (0 < N)%nat -> hermitian N O -> describes N O conn ->
  (forall s, (s < N)%nat -> cderiv (fun t => log_psi t y s) x (gx s) /\ cderiv (fun t => log_psi x t s) y (gy s)) ->
  exists dx dy,
    derivable_pt_lim (fun t => fst (expectation N O (psi_of (log_psi t y)))) x dx /\
    derivable_pt_lim (fun t => fst (expectation N O (psi_of (log_psi x t)))) y dy /\
    grad_complex (log_psi x y) conn (full_sampling N (psi_of (log_psi x y)))
      (fun s => fst (gx s)) (fun s => fst (gy s)) (fun s => snd (gx s)) (fun s => snd (gy s))
    = (dx / 2, dy / 2).
Proof. exact complex_main. Qed.
Print Assumptions C49_complex.

(** The same for a real log-amplitude. *)
Theorem C49_complex_real_output : forall N O conn (log_psi : R -> R -> nat -> cpx) x y (gx gy : nat -> R),
  (0 < N)%nat -> hermitian N O -> describes N O conn ->
  (forall s, (s < N)%nat -> cderiv (fun t => log_psi t y s) x (gx s, 0) /\ cderiv (fun t => log_psi x t s) y (gy s, 0)) ->
  exists dx dy,
    derivable_pt_lim (fun t => fst (expectation N O (psi_of (log_psi t y)))) x dx /\
    derivable_pt_lim (fun t => fst (expectation N O (psi_of (log_psi x t)))) y dy /\
    grad_complex_cr (log_psi x y) conn (full_sampling N (psi_of (log_psi x y))) gx gy = (dx / 2, dy / 2).
Proof. exact complex_real_output. Qed.
Print Assumptions C49_complex_real_output.

(** A real parameter.  Full statement: the force is the derivative of the expectation
    value.  What holds: the derivative is exactly twice the force. *)
Theorem C49_real_partial : forall N O conn (log_psi : R -> nat -> cpx) x (g : nat -> cpx),
  (0 < N)%nat -> hermitian N O -> describes N O conn ->
  (forall s, (s < N)%nat -> cderiv (fun t => log_psi t s) x (g s)) ->
  derivable_pt_lim (fun t => fst (expectation N O (psi_of (log_psi t)))) x
    (2 * grad_real (log_psi x) conn (full_sampling N (psi_of (log_psi x))) (fun s => fst (g s)) (fun s => snd (g s))).
Proof. exact real_main. Qed.
Print Assumptions C49_real_partial.

Theorem C49_real_output_partial : forall N O conn (log_psi : R -> nat -> cpx) x (g : nat -> R),
  (0 < N)%nat -> hermitian N O -> describes N O conn ->
  (forall s, (s < N)%nat -> cderiv (fun t => log_psi t s) x (g s, 0)) ->
  derivable_pt_lim (fun t => fst (expectation N O (psi_of (log_psi t)))) x
    (2 * grad_real_rr (log_psi x) conn (full_sampling N (psi_of (log_psi x))) g).
Proof. exact real_output. Qed.
Print Assumptions C49_real_output_partial.

(** The full statement fails: a derivative 1/2 for which the force is 1/4. *)
Theorem C49_real_refuted : exists N O conn (log_psi : R -> nat -> cpx) x (g : nat -> cpx),
  (0 < N)%nat /\ hermitian N O /\ describes N O conn /\
  (forall s, (s < N)%nat -> cderiv (fun t => log_psi t s) x (g s)) /\
  derivable_pt_lim (fun t => fst (expectation N O (psi_of (log_psi t)))) x (1 / 2) /\
  grad_real (log_psi x) conn (full_sampling N (psi_of (log_psi x))) (fun s => fst (g s)) (fun s => snd (g s)) = 1 / 4.
Proof. exact real_refuted. Qed.
Print Assumptions C49_real_refuted.

(** The hypotheses are met by the projector on the second of two states and amplitudes
    1, exp(t). *)
Example describes_inhabited : describes 2 wit_O wit_conn.
Proof. exact wit_describes. Qed.
Example hermitian_inhabited : hermitian 2 wit_O.
Proof. exact wit_hermitian. Qed.
Example derivative_inhabited : forall x s, cderiv (fun t => wit_log t s) x (wit_g s).
Proof. exact wit_deriv. Qed.
Example expectation_value : forall t,
  fst (expectation 2 wit_O (psi_of (wit_log t))) = exp (2 * t) / (1 + exp (2 * t)).
Proof. exact wit_expectation. Qed.
