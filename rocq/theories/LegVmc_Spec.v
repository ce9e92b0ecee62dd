(** * What the legacy drivers are meant to compute *)
From Coq Require Import List Arith ZArith Bool Reals.
From Verif Require Import Base Rings ARNN_Model ToArray_Model Estim_Model Estim_Spec Balance_Spec LegQsr_Model LegQsr_Spec LegVmc_Model.
Import ListNotations.
Open Scope R_scope.

(** All samples of all ranks; [n] sweeps of [batch] chains on every rank. *)
Definition all_of (ranks : list batches) : list nat := flat_map (@concat nat) ranks.
Definition shape (N n batch : nat) (r : batches) : Prop :=
  length r = n /\ Forall (fun l => length l = batch /\ Forall (fun s => (s < N)%nat) l) r.

(** Averages and covariances over a list of samples. *)
Definition caverage (f : nat -> cpx) (l : list nat) : cpx :=
  (average (fun s => fst (f s)) l, average (fun s => snd (f s)) l).
Definition covariance (a b : nat -> cpx) (l : list nat) : cpx :=
  rsub cC (caverage (fun s => rmul cC (rconj cC (a s)) (b s)) l) (rmul cC (rconj cC (caverage a l)) (caverage b l)).
(** ... and over the Born distribution, for real functions *)
Definition born_mean (N : nat) (log_psi : nat -> cpx) (f : nat -> R) : R :=
  rsum (fun s => born N (psi_of log_psi) s * f s) (seq 0 N).

(** Local value <s|O|psi>/<s|psi>, and the same for the derivative of psi with respect to
    parameter k: <s|O|d_k psi>/<s|psi>. *)
Definition local_of (N : nat) (O : nat -> nat -> cpx) (log_psi : nat -> cpx) (s : nat) : cpx :=
  cdiv (apply_op N O (psi_of log_psi) s) (psi_of log_psi s).
Definition local_derivative (N : nat) (O : nat -> nat -> cpx) (m : qmach) (k s : nat) : cpx :=
  cdiv (apply_op N O (fun t => rmul cC (entry (q_der m t) k) (psi_of (q_log m) t)) s) (psi_of (q_log m) s).

(** Directions in which the parameters may move. *)
Definition direction (complex_parameters : bool) (v : nat -> cpx) : Prop :=
  complex_parameters = true \/ forall k, snd (v k) = 0.
(** Change of the logarithm of the amplitudes *)
Definition velocity (m : qmach) (v : nat -> cpx) (s : nat) : cpx :=
  fsum cC (q_npar m) (fun k => rmul cC (entry (q_der m s) k) (v k)).

(** Random samples, each following the Born distribution, any two of them independent. *)
Definition position (i : nat) (ranks : list batches) : nat := nth i (all_of ranks) 0%nat.
Definition independent (N total : nat) (log_psi : nat -> cpx) (O : list (R * list batches)) : Prop :=
  (forall i s, (i < total)%nat -> (s < N)%nat ->
     probability O (fun w => (position i w =? s)%nat) = born N (psi_of log_psi) s) /\
  (forall i j s t, (i < total)%nat -> (j < total)%nat -> i <> j -> (s < N)%nat -> (t < N)%nat ->
     probability O (fun w => (position i w =? s)%nat && (position j w =? t)%nat)
     = born N (psi_of log_psi) s * born N (psi_of log_psi) t).
