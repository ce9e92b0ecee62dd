(** * C48 and C49 for random samples *)
From Coq Require Import List Arith Reals.
From Verif Require Import Base Rings ARNN_Model ToArray_Model Estim_Model Estim_Spec EstimRand_Spec.
From Verif Require Estim_Proofs EstimRand_Proofs.
Import ListNotations.
Open Scope R_scope.

(** If every sample follows the Born distribution, however the samples depend on each other,
    then the mean of the estimate is the expectation value (of the operator, or of its
    square). *)
Theorem C48_random : forall N total O conn log_psi E squared,
  (0 < total)%nat -> describes N O conn -> sized N total E -> stationary N total log_psi E ->
  mean_over_c E (fun samples => expect squared log_psi conn (uniform samples))
  = expectation N (if squared then dagger_times N O else O) (psi_of log_psi).
Proof. exact EstimRand_Proofs.random_expect'. Qed.
Print Assumptions C48_random.

(** If moreover any two samples are independent, the mean squared error of the estimate is
    the variance <O^dagger O> - |<O>|^2 over the number of samples. *)
Theorem C48_error : forall N total O conn log_psi E,
  (0 < total)%nat -> describes N O conn -> sized N total E -> stationary N total log_psi E -> uncorrelated N total log_psi E ->
  mean_over E (fun samples => cnorm2 (rsub cC (expect false log_psi conn (uniform samples)) (expectation N O (psi_of log_psi))))
  = quantum_variance N O (psi_of log_psi) / INR total.
Proof. exact EstimRand_Proofs.random_error. Qed.
Print Assumptions C48_error.

(** For an eigenstate nothing fluctuates: from any samples the estimates are the eigenvalue
    and the square of its modulus, and the force on every parameter vanishes. *)
Theorem C48_eigenstate : forall N O conn log_psi e samples,
  describes N O conn -> eigenstate N O (psi_of log_psi) e -> samples <> [] -> Forall (fun s => (s < N)%nat) samples ->
  expect false log_psi conn (uniform samples) = e /\ expect true log_psi conn (uniform samples) = (cnorm2 e, 0) /\
  forall du dv, grad_real log_psi conn (uniform samples) du dv = 0.
Proof. exact EstimRand_Proofs.eigen_expect. Qed.
Print Assumptions C48_eigenstate.

(** The mean of the force is (T - 1) / T times the exact one, T the number of samples: for a
    real parameter, where the derivative is twice the exact force, ... *)
Theorem C49_random_real : forall N total O conn (log_psi : R -> nat -> cpx) x (g : nat -> cpx) E,
  (0 < N)%nat -> hermitian N O -> describes N O conn ->
  (forall s, (s < N)%nat -> cderiv (fun t => log_psi t s) x (g s)) -> (1 < total)%nat ->
  sized N total E -> stationary N total (log_psi x) E -> uncorrelated N total (log_psi x) E ->
  derivable_pt_lim (fun t => fst (expectation N O (psi_of (log_psi t)))) x
    (2 * (INR total / (INR total - 1)) * mean_over E (fun samples =>
       grad_real (log_psi x) conn (uniform samples) (fun s => fst (g s)) (fun s => snd (g s)))).
Proof. exact EstimRand_Proofs.random_real. Qed.
Print Assumptions C49_random_real.
(** ... and for a complex one. *)
Theorem C49_random_complex : forall N total O conn (log_psi : R -> R -> nat -> cpx) x y (gx gy : nat -> cpx) E,
  (0 < N)%nat -> hermitian N O -> describes N O conn ->
  (forall s, (s < N)%nat -> cderiv (fun t => log_psi t y s) x (gx s) /\ cderiv (fun t => log_psi x t s) y (gy s)) ->
  (1 < total)%nat -> sized N total E -> stationary N total (log_psi x y) E -> uncorrelated N total (log_psi x y) E ->
  exists dx dy,
    derivable_pt_lim (fun t => fst (expectation N O (psi_of (log_psi t y)))) x dx /\
    derivable_pt_lim (fun t => fst (expectation N O (psi_of (log_psi x t)))) y dy /\
    mean_over_c E (fun samples => grad_complex (log_psi x y) conn (uniform samples)
      (fun s => fst (gx s)) (fun s => fst (gy s)) (fun s => snd (gx s)) (fun s => snd (gy s)))
    = rscal ((INR total - 1) / INR total) (dx / 2, dy / 2).
Proof. exact EstimRand_Proofs.random_complex. Qed.
Print Assumptions C49_random_complex.

(** Two independent fair samples of two states; a spin flip and its eigenstate. *)
Example C48_experiment : sized 2 2 EstimRand_Proofs.ex_E /\ stationary 2 2 (Estim_Proofs.wit_log 0) EstimRand_Proofs.ex_E /\
  uncorrelated 2 2 (Estim_Proofs.wit_log 0) EstimRand_Proofs.ex_E.
Proof. exact (conj EstimRand_Proofs.ex_E_sized (conj EstimRand_Proofs.ex_E_stationary EstimRand_Proofs.ex_E_uncorrelated)). Qed.
Example C48_flip : describes 2 EstimRand_Proofs.flip_O EstimRand_Proofs.flip_conn /\
  eigenstate 2 EstimRand_Proofs.flip_O (psi_of (Estim_Proofs.wit_log 0)) (1, 0).
Proof. exact (conj EstimRand_Proofs.flip_describes EstimRand_Proofs.flip_eigen). Qed.
