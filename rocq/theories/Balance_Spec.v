(** * Transition probabilities of an accept/reject step, detailed balance *)
From Coq Require Import List ZArith Reals.
From Verif Require Import Balance_Model.
Import ListNotations.
Open Scope R_scope.

Fixpoint rsum {X} (f : X -> R) (l : list X) : R :=
  match l with [] => 0 | x :: l => f x + rsum f l end.

(** [a] is the probability that a number drawn uniformly from [0,1) satisfies [P]:
    the draws satisfying it are exactly those below [a]. *)
Definition probability_of (P : R -> Prop) (a : R) : Prop :=
  0 <= a <= 1 /\ forall u, 0 <= u < 1 -> (P u <-> u < a).

Section Spec.
  Context {X : Type}.
  Variable eqd : forall x y : X, {x = y} + {x <> y}.
  Variable space : list X.                      (* all configurations *)

  (** [T x y] is the probability that the rule proposes [y] from [x]. *)
  Definition proposal (T : X -> X -> R) : Prop :=
    (forall x y, In x space -> In y space -> 0 <= T x y) /\
    (forall x, In x space -> rsum (T x) space = 1).

  (** The correction of the rule is the logarithm of the reverse over the forward
      proposal probability, for every proposal that can occur; no correction means
      that the two are equal. *)
  Definition corrected (T : X -> X -> R) (corr : X -> X -> option ext) : Prop :=
    forall x y, In x space -> In y space -> 0 < T x y ->
      match corr x y with
      | None => T y x = T x y
      | Some (Fin c) => 0 < T y x /\ c = ln (T y x / T x y)
      | Some MInf => T y x = 0
      end.

  (** One step: propose [y] with probability [T x y], go there with probability
      [a x y], otherwise stay. *)
  Definition kernel (T a : X -> X -> R) (x z : X) : R :=
    rsum (fun y => T x y * (a x y * (if eqd y z then 1 else 0) +
                            (1 - a x y) * (if eqd x z then 1 else 0))) space.

  (** |psi|^machine_pow. *)
  Definition target (re_log_psi : X -> R) (machine_pow : Z) (x : X) : R :=
    powerRZ (exp (re_log_psi x)) machine_pow.

  (** The distribution after one step from the distribution [d]. *)
  Definition push (K : X -> X -> R) (d : X -> R) (z : X) : R := rsum (fun x => d x * K x z) space.
  Fixpoint pushes (K : X -> X -> R) (n : nat) (d : X -> R) : X -> R :=
    match n with O => d | S n => pushes K n (push K d) end.
End Spec.
