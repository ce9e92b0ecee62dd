(** * The distribution sampled by a replica: the target to the power beta *)
From Coq Require Import List ZArith Reals.
From Verif Require Import Balance_Model Balance_Spec.
Open Scope R_scope.

Definition tempered {X} (re_log_psi : X -> R) (machine_pow : Z) (beta : R) (x : X) : R :=
  Rpower (target re_log_psi machine_pow x) beta.
