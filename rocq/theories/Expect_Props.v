From Coq Require Import List Arith Reals.
From Verif Require Import Rings ARNN_Model ToArray_Model Estim_Model Estim_Spec Expect_Model Expect_Spec Expect_Proofs.
Import ListNotations.
Open Scope R_scope.

(** ** C80 *)

(** Under full sampling, spread over the ranks in any way, the value is the mean. *)
Theorem C80_value :
  forall N log_pdf ranks f, fully_sampled N log_pdf ranks -> expect_value ranks f = mean_under N log_pdf f.
Proof. exact mean_full. Qed.
Print Assumptions C80_value.

(** The reverse pass, added up over the ranks, is the derivative of the mean, for
    distributions and functions depending on the parameter in any way, normalised or not. *)
Theorem C80_gradient :
  forall N (lp fn : R -> nat -> R) x (dlog dfun : nat -> R) ranks, (0 < N)%nat ->
  (forall s, (s < N)%nat -> derivable_pt_lim (fun t => lp t s) x (dlog s) /\ derivable_pt_lim (fun t => fn t s) x (dfun s)) ->
  fully_sampled N (lp x) ranks ->
  derivable_pt_lim (fun t => mean_under N (lp t) (fn t)) x (lsum rR (map (fun r => expect_bwd ranks r (fn x) dlog dfun 1) ranks)).
Proof. exact gradient_main. Qed.
Print Assumptions C80_gradient.

(** The gradient of a non-Hermitian operator in a real state with machine_pow 2.  Full
    statement: it is the derivative of the expectation value.  What holds: it is that
    derivative divided by the number of ranks. *)
Theorem C80_operator_partial :
  forall N O conn (log_psi : R -> nat -> R) x (g dloc : nat -> R) ranks, (0 < N)%nat -> describes N O conn ->
  (forall s, (s < N)%nat -> derivable_pt_lim (fun t => log_psi t s) x (g s) /\
     derivable_pt_lim (fun t => fst (local_value (relog (log_psi t)) s (conn s))) x (dloc s)) ->
  fully_sampled N (fun s => 2 * log_psi x s) ranks ->
  derivable_pt_lim (fun t => fst (expectation N O (psi_of (relog (log_psi t))))) x
    (INR (length ranks) * operator_gradient ranks (fun s => fst (local_value (relog (log_psi x)) s (conn s))) (fun s => 2 * g s) dloc).
Proof. exact state_main. Qed.
Print Assumptions C80_operator_partial.

(** On two ranks a derivative 1/4 is returned as 1/8. *)
Theorem C80_ranks_refuted :
  exists N (lp fn : R -> nat -> R) x (dlog dfun : nat -> R) ranks,
  (forall s, (s < N)%nat -> derivable_pt_lim (fun t => lp t s) x (dlog s) /\ derivable_pt_lim (fun t => fn t s) x (dfun s)) /\
  fully_sampled N (lp x) ranks /\
  derivable_pt_lim (fun t => mean_under N (lp t) (fn t)) x (/ 4) /\ operator_gradient ranks (fn x) dlog dfun = / 8.
Proof. exact ranks_refuted. Qed.
Print Assumptions C80_ranks_refuted.

(** Declaring a Hermitian operator to be non-Hermitian doubles its gradient. *)
Theorem C80_is_hermitian_refuted :
  forall N O conn (log_psi : R -> nat -> R) x (g dloc : nat -> R), (0 < N)%nat -> describes N O conn -> hermitian N O ->
  (forall s, (s < N)%nat -> derivable_pt_lim (fun t => log_psi t s) x (g s) /\
     derivable_pt_lim (fun t => fst (local_value (relog (log_psi t)) s (conn s))) x (dloc s)) ->
  forall samples, fully_sampled N (fun s => 2 * log_psi x s) [samples] ->
  operator_gradient [samples] (fun s => fst (local_value (relog (log_psi x)) s (conn s))) (fun s => 2 * g s) dloc
  = 2 * grad_real_rr (relog (log_psi x)) conn (full_sampling N (psi_of (relog (log_psi x)))) g.
Proof. exact twice_hermitian. Qed.
Print Assumptions C80_is_hermitian_refuted.

(** The hypotheses are met: see the definitions of the witness. *)
Example C80_ex : (forall s, (s < 2)%nat -> derivable_pt_lim (fun t => ex_lp t s) 0 (ex_dlog s) /\ derivable_pt_lim (fun t => ex_fn t s) 0 0) /\
  fully_sampled 2 (ex_lp 0) ex_ranks.
Proof. exact (Logic.conj ex_derivs ex_full). Qed.
