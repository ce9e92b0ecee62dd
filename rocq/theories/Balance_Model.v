(** * The accept/reject step of the Metropolis samplers over the real numbers

    Models the test of netket/sampler/metropolis.py 310-332 and of
    netket/sampler/metropolis_numpy.py 264-281, with the real exponential of the
    standard library.  Rounding is outside the model; the value -inf of a
    correction (logarithm of a zero probability) is [MInf]. *)
From Coq Require Import List ZArith Reals.
Import ListNotations.
Open Scope R_scope.

(** A log-probability correction: a number or -inf. *)
Inductive ext : Type := Fin (r : R) | MInf.

(** [exp] of [d + corr]. *)
Definition exp_ext (d : R) (corr : ext) : R :=
  match corr with Fin c => exp (d + c) | MInf => 0 end.

Section Step.
  Context {X : Type}.
  Variable re_log_psi : X -> R.       (* machine.apply(parameters, x).real *)
  Variable machine_pow : Z.
  Variable corr : X -> X -> option ext. (* log_prob_correction of the rule; None: no correction *)

  (** metropolis.py 310 and 322-324: [machine_pow * machine.apply(...).real]. *)
  Definition log_prob (x : X) : R := IZR machine_pow * re_log_psi x.

  (** metropolis.py 327-332: [uniform < exp(proposal_log_prob - log_prob + corr)]. *)
  Definition accepts (x y : X) (u : R) : Prop :=
    match corr x y with
    | Some c => u < exp_ext (log_prob y - log_prob x) c
    | None => u < exp (log_prob y - log_prob x)
    end.

  (** metropolis_numpy.py 270-276: the same test in the form
      [exp(machine_pow * (log_values_1 - log_values).real + corr) > random_uniform]. *)
  Definition np_accepts (x y : X) (u : R) : Prop :=
    match corr x y with
    | Some c => exp_ext (IZR machine_pow * (re_log_psi y - re_log_psi x)) c > u
    | None => exp (IZR machine_pow * (re_log_psi y - re_log_psi x) + 0) > u
    end.
End Step.
