(** * Expectation values as differentiable functions (netket/jax/_expect.py, and its use in
    netket/vqs/mc_state.py 698-761)

    Real values, real parameters.  Every rank holds samples with weights: in the code all
    weights are 1 / (number of samples on the rank * number of ranks).  What automatic
    differentiation returns for log_pdf and expected_fun are the derivatives [dlog], [dfun].
    mpi4jax differentiates allreduce(sum) in reverse mode as the identity: every rank gets
    its own share of the derivative of a distributed sum (trusted). *)
From Coq Require Import List Arith Reals.
From Verif Require Import Rings Estim_Model.
Import ListNotations.
Open Scope R_scope.

Definition rank_samples := list (R * nat).

(** stats/mpi_stats.py 40-61: the mean over all ranks *)
Definition local_part (samples : rank_samples) (f : nat -> R) : R :=
  lsum rR (map (fun s => fst s * f (snd s)) samples).
Definition mpi_mean (ranks : list rank_samples) (f : nat -> R) : R := lsum rR (map (fun r => local_part r f) ranks).

(** _expect.py 52-60: the value *)
Definition expect_value (ranks : list rank_samples) (fun_ : nat -> R) : R := mpi_mean ranks fun_.
(** 63-77: the centred values *)
Definition expect_delta (ranks : list rank_samples) (fun_ : nat -> R) (s : nat) : R := fun_ s - expect_value ranks fun_.
(** 86-101: what the reverse pass returns on the rank holding [mine], for cotangent [dL] *)
Definition expect_bwd (ranks : list rank_samples) (mine : rank_samples) (fun_ dlog dfun : nat -> R) (dL : R) : R :=
  dL * local_part mine (fun s => expect_delta ranks fun_ s * dlog s + dfun s).

(** mc_state.py 698-761: the gradient of a non-Hermitian or squared operator, after
    mpi_mean_jax over the ranks (757) *)
Definition operator_gradient (ranks : list rank_samples) (fun_ dlog dfun : nat -> R) : R :=
  lsum rR (map (fun r => expect_bwd ranks r fun_ dlog dfun 1) ranks) / INR (length ranks).
