(** * The accept/reject step of one replica of the parallel tempering sampler
    (netket/sampler/metropolis_pt.py 229-257), over the real numbers *)
From Coq Require Import List ZArith Reals.
From Verif Require Import Balance_Model.
Import ListNotations.
Open Scope R_scope.

Section Step.
  Context {X : Type}.
  Variable re_log_psi : X -> R.
  Variable machine_pow : Z.
  Variable corr : X -> X -> option ext.

  (** 238-247: uniform < exp(beta * (proposal_log_prob - log_prob + correction)); the
      product of a positive beta with -inf is -inf. *)
  Definition pt_accepts (beta : R) (x y : X) (u : R) : Prop :=
    let d := log_prob re_log_psi machine_pow y - log_prob re_log_psi machine_pow x in
    match corr x y with
    | Some (Fin c) => u < exp (beta * (d + c))
    | Some MInf => u < 0
    | None => u < exp (beta * d)
    end.
End Step.
