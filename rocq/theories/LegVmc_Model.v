(** * Energies and steady states of the legacy drivers (netket/legacy/_vmc.py,
      netket/legacy/_steadystate.py, netket/legacy/variational.py)

    Machines and operators as in LegQsr_Model: configurations are the numbers of the basis
    states, an operator is its [get_conn], a machine its log_val and der_log; exact complex
    arithmetic.  What a rank samples is an input: [batch] configurations for each sweep.  A
    collective operation is a function of what all ranks contribute.  The solver of the
    stochastic reconfiguration is an oracle.  Parameters are one flat vector, as for the
    numpy machines (for jax machines each leaf of the tree is treated alike). *)
From Coq Require Import List Arith ZArith Bool Reals.
From Verif Require Import Base Rings ARNN_Model ToArray_Model Estim_Model LegQsr_Model.
Import ListNotations.
Open Scope R_scope.
Open Scope nat_scope.

(** What one rank sampled: sweeps of chains (abstract_sampler.py 51-59) *)
Definition batches := list (list nat).
(** legacy/stats/mpi_stats.py 34-59: every rank takes its mean; these are summed and divided
    by the number of ranks *)
Definition cmean (l : list cpx) : cpx := rscal (/ INR (length l)) (lsum cC l).
Definition mean_all (per_rank : list (list cpx)) : cpx := cmean (map cmean per_rank).
(** legacy/stats/_sum_inplace.py 48-59 *)
Definition sum_ranks (n : nat) (rows : list (list cpx)) : list cpx :=
  map (fun k => lsum cC (map (fun r => entry r k) rows)) (seq 0 n).
(** machine/abstract_machine.py 66-77, two axes: jacobian^dagger vec *)
Definition vjp_value (m : qmach) (xs : list nat) (vec : list cpx) : list cpx :=
  map (fun k => lsum cC (map (fun p => rmul cC (rconj cC (entry (q_der m (fst p)) k)) (snd p)) (combine xs vec)))
    (seq 0 (q_npar m)).
(** operator/_local_values.py 26-45, as called in _vmc.py 222-232 *)
Definition local_values (m : qmach) (conn : conn_of) (r : batches) : list cpx :=
  map (fun s => local_value (q_log m) s (conn s)) (concat r).
Definition log_derivatives (m : qmach) (r : batches) : list (list cpx) := map (q_der m) (concat r).
Definition real_part (d : list cpx) : list cpx := map (fun z => (fst z, 0%R)) d.

(** The three ways of _vmc.py 157-197: no SR, SR from the jacobians, SR from the samples. *)
Inductive sr_kind :=
| NoSR
| FromJacobian (solve : list (list (list cpx)) -> list cpx -> list cpx)
| OnTheFly (solve : list (list nat) -> list cpx -> list cpx).
(** The mean of the statistics of the loss, and the direction handed to the optimiser. *)
Record step_out := StepOut { o_loss : cpx; o_dp : list cpx }.

(** _vmc.py 148-199 (after the sampling) *)
Definition vmc_step (m : qmach) (complex_parameters : bool) (conn : conn_of) (n_samples : nat) (sr : sr_kind)
    (ranks : list batches) : step_out :=
  let eloc := map (local_values m conn) ranks in
  let mean := mean_all eloc in
  let grads := sum_ranks (q_npar m) (map (fun p => vjp_value m (concat (fst p))
      (map (fun e => rscal (/ INR n_samples) (rsub cC e mean)) (snd p))) (combine ranks eloc)) in
  StepOut mean match sr with
  | FromJacobian solve => solve (map (log_derivatives m) ranks) grads
  | OnTheFly solve => solve (map (@concat nat) ranks) grads
  | NoSR => if complex_parameters then grads else real_part grads
  end.

(** operator/_der_local_values.py 58-90, 165-168: the derivatives are not centered *)
Definition der_local (m : qmach) (conn : conn_of) (s k : nat) : cpx :=
  lsum cC (map (fun c => rmul cC (rmul cC (snd c) (cexp (rsub cC (q_log m (fst c)) (q_log m s))))
    (entry (q_der m (fst c)) k)) (conn s)).
(** _steadystate.py 216-267, 292-301; there is no on-the-fly variant *)
Definition steady_step (m : qmach) (complex_parameters : bool) (conn : conn_of)
    (sr : option (list (list (list cpx)) -> list cpx -> list cpx)) (ranks : list batches) : step_out :=
  let lloc := map (local_values m conn) ranks in
  let loss := mean_all (map (map (fun l => (cnorm2 l, 0%R))) lloc) in
  let ave := map (fun k => mean_all (map (fun r => map (fun s => entry (q_der m s) k) (concat r)) ranks)) (seq 0 (q_npar m)) in
  let grads := map (fun k => rsub cC
      (mean_all (map (fun p => map (fun q => rmul cC (rconj cC (der_local m conn (fst q) k)) (snd q)) (combine (concat (fst p)) (snd p)))
         (combine ranks lloc)))
      (rmul cC (rconj cC (entry ave k)) loss)) (seq 0 (q_npar m)) in
  StepOut loss match sr with
  | Some solve => solve (map (fun r => map (fun s => map (fun k => rsub cC (entry (q_der m s) k) (entry ave k)) (seq 0 (q_npar m)))
                     (concat r)) ranks) grads
  | None => if complex_parameters then grads else real_part grads
  end.

(** variational.py 8-69: estimate_expectations with gradients, for one operator: the mean of
    the statistics and what every rank returns as the gradient *)
Definition estimate_expectations (m : qmach) (conn : conn_of) (n_samples : nat) (ranks : list batches) : cpx * list (list cpx) :=
  let lvs := map (local_values m conn) ranks in
  let mean := mean_all lvs in
  (mean, map (fun p => vjp_value m (concat (fst p)) (map (fun e => rscal (/ INR n_samples) (rsub cC e mean)) (snd p)))
           (combine ranks lvs)).
(** 45-46: sweeps that are discarded *)
Definition estimate_discard (n_samples : Z) (n_discard : option Z) : Z :=
  match n_discard with
  | Some d => if (d =? 0)%Z then (n_samples / 10)%Z else d
  | None => (n_samples / 10)%Z
  end.

(** ** Sizes: _vmc.py 72-78, 96-127 and _steadystate.py 74-89, 122-194 *)
Record vsize := VSize { v_node : Z; v_total : Z; v_discard : Z }.
Definition vmc_sizes (n_samples : Z) (n_discard : option Z) (batch nodes : Z) : res vsize :=
  if (n_samples <=? 0)%Z then Err ValueError
  else
    let node := per_node n_samples batch nodes in
    match n_discard with
    | Some d => if (d <? 0)%Z then Err ValueError else Ok (VSize node (node * batch * nodes) d)
    | None => Ok (VSize node (node * batch * nodes) (node * batch / 10))
    end.
(** The sampler for the observables, if given, with its batch; comparing None with 0 is a
    TypeError. *)
Definition obs_sizes (n_samples_obs n_discard_obs : option Z) (batch nodes : Z) : res vsize :=
  match n_samples_obs with
  | None => Err TypeError
  | Some n => vmc_sizes n n_discard_obs batch nodes
  end.
Definition steady_sizes (n_samples : Z) (n_discard : option Z) (batch nodes : Z)
    (obs : option (Z * option Z * option Z)) : res (vsize * option vsize) :=
  let? z := vmc_sizes n_samples n_discard batch nodes in
  match obs with
  | None => Ok (z, None)
  | Some (batch_obs, n_obs, d_obs) => let? zo := obs_sizes n_obs d_obs batch_obs nodes in Ok (z, Some zo)
  end.
(** _steadystate.py 269-283, 303-306: sweeps discarded and kept to estimate an observable
    when there are no valid samples of the diagonal *)
Definition diagonal_sweeps (z : vsize * option vsize) : res (Z * Z) :=
  match snd z with
  | None => Err AttributeError
  | Some zo => Ok (v_discard (fst z), v_node zo)
  end.
