(** * Mean and variance of one data set *)
From Coq Require Import List ZArith QArith Qcanon.
From Verif Require Import MpiStats_Model.
Import ListNotations.
Open Scope Qc_scope.

Definition gmean (data : list cplx) : cplx := cdivr (csum data) (nQc (length data)).
Definition gvar (ddof : nat) (data : list cplx) : Qc :=
  qsum (map (fun x => cabs2 (csub x (gmean data))) data) / (nQc (length data) - nQc ddof).

(** Every rank holds the same positive number of elements. *)
Definition equal_split (k : nat) (ranks : list (list cplx)) : Prop :=
  (0 < k)%nat /\ ranks <> [] /\ Forall (fun a => length a = k) ranks.
