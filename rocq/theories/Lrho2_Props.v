From Coq Require Import List Arith Reals Lia.
From Verif Require Import Base Rings ARNN_Model ToArray_Model Estim_Model Estim_Spec Estim_Proofs JaxUtils_Model
  Lrho2_Model Lrho2_Spec Lrho2_Proofs.
Import ListNotations.
Open Scope R_scope.

(** C92.  Weighting every configuration with its Born probability, the reported cost is
    |L rho|^2 / |rho|^2: for a complex log-amplitude always, for a real one if the matrix
    elements are real too. *)
Theorem C92_value : forall N L conn log_psi d nodes any this out v g, describes N L conn ->
  out = true \/ (real_log log_psi /\ real_elements N conn) ->
  lrho2 nodes any this out log_psi conn d (full_sampling N (psi_of log_psi)) = Ok (v, g) ->
  v = (cost N L (psi_of log_psi), 0).
Proof. exact value_main. Qed.
Print Assumptions C92_value.

Example C92_value_case : describes 2 phase_O phase_conn /\
  lrho2 1 true true true (wit_log 0) phase_conn (derivs_of wit_g (fun _ => (0, 0))) (full_sampling 2 (psi_of (wit_log 0)))
  = Ok ((1 / 2, 0), (- (1 / 4), 0)).
Proof. split; [exact phase_describes | exact phase_hol]. Qed.

(** A complex parameter x + i y on which the log-amplitude depends holomorphically, one
    rank: the update is (dC/dx + i dC/dy) / 2, the derivative of the cost C with respect
    to the conjugate parameter. *)
Theorem C92_complex : forall N L conn (log_psi : R -> R -> nat -> cpx) x y (gx gy : nat -> cpx),
  (0 < N)%nat -> describes N L conn ->
  (forall s, (s < N)%nat -> cderiv (fun t => log_psi t y s) x (gx s) /\ cderiv (fun t => log_psi x t s) y (gy s)) ->
  (forall s, (s < N)%nat -> gy s = rmul cC (0, 1) (gx s)) ->
  exists dx dy,
    derivable_pt_lim (fun t => cost N L (psi_of (log_psi t y))) x dx /\
    derivable_pt_lim (fun t => cost N L (psi_of (log_psi x t))) y dy /\
    steady_update 1 true true true (log_psi x y) conn (derivs_of gx gy) (full_sampling N (psi_of (log_psi x y)))
    = Ok ((cost N L (psi_of (log_psi x y)), 0), (dx / 2, dy / 2)).
Proof. exact steady_complex. Qed.
Print Assumptions C92_complex.

(** rho = (1, exp (x + i y)) *)
Example C92_complex_case : forall x y, exists gx gy : nat -> cpx,
  let log_psi x y s := if (s =? 1)%nat then (x, y) else (0, 0) in
  (forall s, (s < 2)%nat -> cderiv (fun t => log_psi t y s) x (gx s) /\ cderiv (fun t => log_psi x t s) y (gy s)) /\
  (forall s, (s < 2)%nat -> gy s = rmul cC (0, 1) (gx s)).
Proof.
  intros x y. exists wit_g, (fun s => if (s =? 1)%nat then (0, 1) else (0, 0)). cbv zeta. split; intros s _; unfold wit_g.
  - destruct (s =? 1)%nat; split; split; cbn [fst snd]; try apply derivable_pt_lim_const; apply derivable_pt_lim_id.
  - destruct (s =? 1)%nat; cbn [cC rmul fst snd]; f_equal; ring.
Qed.

(** A real parameter, complex log-amplitude, one rank.  Full statement: the update is the
    derivative of the cost.  What holds: the derivative is exactly twice the update. *)
Theorem C92_real_partial : forall N L conn (log_psi : R -> nat -> cpx) x (g gy : nat -> cpx),
  (0 < N)%nat -> describes N L conn ->
  (forall s, (s < N)%nat -> cderiv (fun t => log_psi t s) x (g s)) ->
  exists h, steady_update 1 false false true (log_psi x) conn (derivs_of g gy) (full_sampling N (psi_of (log_psi x)))
      = Ok ((cost N L (psi_of (log_psi x)), 0), (h, 0)) /\
    derivable_pt_lim (fun t => cost N L (psi_of (log_psi t))) x (2 * h).
Proof. exact steady_real. Qed.
Print Assumptions C92_real_partial.

(** The same for a real log-amplitude and real matrix elements. *)
Theorem C92_real_output_partial : forall N L conn (log_psi : R -> nat -> cpx) x (g : nat -> R) gy,
  (0 < N)%nat -> describes N L conn -> (forall t, real_log (log_psi t)) -> real_elements N conn ->
  (forall s, (s < N)%nat -> cderiv (fun t => log_psi t s) x (g s, 0)) ->
  exists h, steady_update 1 false false false (log_psi x) conn (derivs_of (fun s => (g s, 0)) gy)
        (full_sampling N (psi_of (log_psi x)))
      = Ok ((cost N L (psi_of (log_psi x)), 0), (h, 0)) /\
    derivable_pt_lim (fun t => cost N L (psi_of (log_psi t))) x (2 * h).
Proof. exact steady_real_output. Qed.
Print Assumptions C92_real_output_partial.

Example C92_real_case : describes 2 wit_O wit_conn /\ (forall t, real_log (wit_log t)) /\ real_elements 2 wit_conn /\
  (forall s, (s < 2)%nat -> cderiv (fun t => wit_log t s) 0 (wit_g s)) /\
  derivable_pt_lim (fun t => cost 2 wit_O (psi_of (wit_log t))) 0 (1 / 2).
Proof.
  split; [exact wit_describes|]. split; [exact wit_real|]. split; [exact wit_real_elements|].
  split; [intros s _; apply wit_deriv|]. apply wit_cost_deriv. now left.
Qed.

(** On several ranks the mean logarithmic derivative is counted once for every rank: the
    update is off by (nodes - 1) Re <d log rho> C. *)
Theorem C92_ranks_partial : forall N L conn (log_psi : R -> nat -> cpx) x (g gy : nat -> cpx) nodes,
  (0 < N)%nat -> describes N L conn ->
  (forall s, (s < N)%nat -> cderiv (fun t => log_psi t s) x (g s)) ->
  exists h, steady_update nodes false false true (log_psi x) conn (derivs_of g gy) (full_sampling N (psi_of (log_psi x)))
      = Ok ((cost N L (psi_of (log_psi x)), 0), (h, 0)) /\
    derivable_pt_lim (fun t => cost N L (psi_of (log_psi t))) x
      (2 * (h + (INR nodes - 1) * fst (mean_log_derivative N (psi_of (log_psi x)) g) * cost N L (psi_of (log_psi x)))).
Proof. exact ranks_main. Qed.
Print Assumptions C92_ranks_partial.

(** Full statement: the update does not depend on over how many ranks the samples are
    spread.  It does: here the derivative is 1/2, and the update 1/4 on one rank, zero on
    two, and of the wrong sign on three or more. *)
Theorem C92_ranks_refuted : exists N L conn (log_psi : R -> nat -> cpx) (g : nat -> cpx),
  (0 < N)%nat /\ describes N L conn /\
  (forall s, (s < N)%nat -> cderiv (fun t => log_psi t s) 0 (g s)) /\
  derivable_pt_lim (fun t => cost N L (psi_of (log_psi t))) 0 (1 / 2) /\
  forall nodes gy, exists v,
    steady_update nodes false false true (log_psi 0) conn (derivs_of g gy) (full_sampling N (psi_of (log_psi 0)))
    = Ok (v, ((2 - INR nodes) / 4, 0)).
Proof. exact ranks_refuted. Qed.
Print Assumptions C92_ranks_refuted.

(** A real log-amplitude with complex matrix elements: only their real parts are used.
    Here the cost is 1/2 with derivative 1/2; reported are cost and update zero. *)
Theorem C92_real_output_refuted : exists N L conn (log_psi : R -> nat -> cpx) (g gy : nat -> cpx),
  (0 < N)%nat /\ describes N L conn /\ (forall t, real_log (log_psi t)) /\
  (forall s, (s < N)%nat -> cderiv (fun t => log_psi t s) 0 (g s)) /\
  cost N L (psi_of (log_psi 0)) = 1 / 2 /\
  derivable_pt_lim (fun t => cost N L (psi_of (log_psi t))) 0 (1 / 2) /\
  steady_update 1 false false false (log_psi 0) conn (derivs_of g gy) (full_sampling N (psi_of (log_psi 0)))
    = Ok ((0, 0), (0, 0)).
Proof. exact real_output_refuted. Qed.
Print Assumptions C92_real_output_refuted.

(** A complex parameter on which the log-amplitude depends, but not holomorphically: the
    derivatives are 1/2 and 0, so that the update would be 1/4; it is -1/4. *)
Theorem C92_nonholomorphic_refuted : exists N L conn (log_psi : R -> R -> nat -> cpx) (gx gy : nat -> cpx),
  (0 < N)%nat /\ describes N L conn /\
  (forall s, (s < N)%nat -> cderiv (fun t => log_psi t 0 s) 0 (gx s) /\ cderiv (fun t => log_psi 0 t s) 0 (gy s)) /\
  derivable_pt_lim (fun t => cost N L (psi_of (log_psi t 0))) 0 (1 / 2) /\
  derivable_pt_lim (fun t => cost N L (psi_of (log_psi 0 t))) 0 0 /\
  exists v, steady_update 1 true true true (log_psi 0 0) conn (derivs_of gx gy) (full_sampling N (psi_of (log_psi 0 0)))
    = Ok (v, (- (1 / 4), 0)).
Proof. exact nonholomorphic_refuted. Qed.
Print Assumptions C92_nonholomorphic_refuted.

(** Complex parameters with a real log-amplitude, and trees with real and complex
    parameters, are refused; everything else gives a result. *)
Theorem C92_kinds : forall nodes this out log_psi conn d samples,
  lrho2 nodes true this false log_psi conn d samples = Err RuntimeError /\
  lrho2 nodes true false true log_psi conn d samples = Err TypeError /\
  (exists r, lrho2 nodes true true true log_psi conn d samples = Ok r) /\
  (exists r, lrho2 nodes false this out log_psi conn d samples = Ok r).
Proof. exact kinds_main. Qed.
Print Assumptions C92_kinds.

(** C93.  Unless told otherwise, expect_and_grad estimates the operator given, or its
    square if the square was given; the estimator for hermitian operators is used for
    these only. *)
Theorem C93_estimates : forall same experimental op e,
  expect_and_grad same None experimental op = Ok (Some e) ->
  same = true /\ estimated e = asked op /\
  (e = EHermitian -> exists superop, op = Plain true superop) /\ (e = ELrho2 -> op = SquaredOf true).
Proof. exact estimates_main. Qed.
Print Assumptions C93_estimates.

Example C93_estimates_case : expect_and_grad true None false (SquaredOf true) = Ok (Some ELrho2) /\
  expect_and_grad true None false (Plain true false) = Ok (Some EHermitian).
Proof. split; reflexivity. Qed.

(** There is an estimate for every operator on the same space, except without the
    experimental flag for non-hermitian ones and squares of operators other than
    super-operators: these raise. *)
Theorem C93_available : forall experimental op,
  (exists e, expect_and_grad true None experimental op = Ok (Some e)) \/
  (expect_and_grad true None experimental op = Err RuntimeError /\ experimental = false /\
   (op = SquaredOf false \/ exists superop, op = Plain false superop)).
Proof. exact available_main. Qed.
Print Assumptions C93_available.

(** grad estimates the same. *)
Theorem C93_grad : forall same experimental op e,
  grad_of (expect_and_grad same) None experimental op = Ok e <-> expect_and_grad same None experimental op = Ok (Some e).
Proof. exact grad_same. Qed.
Print Assumptions C93_grad.

(** Told that a square is not hermitian, the operator under the square is estimated
    instead of the square. *)
Theorem C93_override_refuted : exists is_hermitian experimental op e,
  expect_and_grad true is_hermitian experimental op = Ok (Some e) /\ estimated e <> asked op.
Proof. exact override_refuted. Qed.
Print Assumptions C93_override_refuted.

(** grad ignores what it is told. *)
Theorem C93_grad_override_refuted : exists same is_hermitian experimental op e,
  expect_and_grad same is_hermitian experimental op = Ok (Some e) /\
  grad_of (expect_and_grad same) is_hermitian experimental op = Err RuntimeError.
Proof. exact grad_override_refuted. Qed.
Print Assumptions C93_grad_override_refuted.

(** An operator on another space does not raise: the object NotImplemented is returned in
    place of the pair, also for a physical operator on a mixed state. *)
Theorem C93_other_space_partial : forall is_hermitian experimental op,
  expect_and_grad false is_hermitian experimental op = Ok None /\
  (forall physical, mixed_expect_and_grad false physical is_hermitian experimental op = Ok None) /\
  mixed_expect_and_grad true false is_hermitian experimental op = expect_and_grad true is_hermitian experimental op.
Proof. exact other_space_main. Qed.
Print Assumptions C93_other_space_partial.
