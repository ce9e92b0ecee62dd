(** * Convergence of a Markov chain *)
From Coq Require Import List ZArith Reals Arith Relations.
From Verif Require Import Balance_Model Balance_Spec.
Import ListNotations.
Open Scope R_scope.

Section Spec.
  Context {X : Type}.
  Variable space : list X.                      (* all configurations *)

  Definition distribution (d : X -> R) : Prop :=
    (forall x, In x space -> 0 <= d x) /\ rsum d space = 1.

  (** The weights [w] divided by their total. *)
  Definition normalised (w : X -> R) (x : X) : R := w x / rsum w space.

  (** Sum of the absolute differences (twice the total variation distance). *)
  Definition difference (d e : X -> R) : R := rsum (fun x => Rabs (d x - e x)) space.

  (** Whatever the starting distribution, the distribution after [n] steps has a
      distance from the normalised weights that goes to zero geometrically, with
      the same constants for all starting distributions. *)
  Definition mixes (K : X -> X -> R) (w : X -> R) : Prop :=
    exists k q, (0 < k)%nat /\ 0 <= q < 1 /\
      forall d n, distribution d -> difference (pushes space K n d) (normalised w) <= 2 * q ^ (n / k).

  (** The weaker notion: pointwise limit. *)
  Definition tends (K : X -> X -> R) (w : X -> R) : Prop :=
    forall d z, distribution d -> In z space -> Un_cv (fun n => pushes space K n d z) (normalised w z).

  (** Expected value of [F] of the list of the next [n] configurations of the chain
      that is at [x]. *)
  Fixpoint path_mean (K : X -> X -> R) (n : nat) (x : X) (F : list X -> R) : R :=
    match n with
    | O => F []
    | S n => rsum (fun y => K x y * path_mean K n y (fun l => F (y :: l))) space
    end.

  Definition average (f : X -> R) (l : list X) : R := rsum f l / INR (length l).

  (** Mean square error of the average of [f] over the next [n] configurations, as an
      estimate of [mu]. *)
  Definition mean_square_error (K : X -> X -> R) (f : X -> R) (mu : R) (n : nat) (x : X) : R :=
    path_mean K n x (fun l => (average f l - mu) ^ 2).

  (** [s] steps between recorded configurations. *)
  Definition every (eqd : forall x y : X, {x = y} + {x <> y}) (s : nat) (K : X -> X -> R) (x z : X) : R :=
    pushes space K s (fun y => if eqd y x then 1 else 0) z.

  (** [n] proposals lead from [x] to [y], each of which could also be proposed the
      other way. *)
  Inductive walk (T : X -> X -> R) : nat -> X -> X -> Prop :=
  | walk_nil x : In x space -> walk T 0 x x
  | walk_cons n x y z : In x space -> In y space -> 0 < T x y -> 0 < T y x ->
      walk T n y z -> walk T (S n) x z.

  Definition connected (T : X -> X -> R) : Prop :=
    forall x y, In x space -> In y space -> exists n, walk T n x y.
  Definition odd_return (T : X -> X -> R) : Prop :=
    exists x n, Nat.Odd n /\ walk T n x x.

  (** Some proposal is turned down for some value of the random number. *)
  Definition may_reject (T : X -> X -> R) (acc : X -> X -> R -> Prop) : Prop :=
    exists x y, In x space /\ In y space /\ 0 < T x y /\ exists u, 0 <= u < 1 /\ ~ acc x y u.
End Spec.

(** Sites [i] and [j] are linked through the clusters. *)
Definition linked (clusters : list (Z * Z)) : nat -> nat -> Prop :=
  clos_refl_trans nat (fun i j => In (Z.of_nat i, Z.of_nat j) clusters \/ In (Z.of_nat j, Z.of_nat i) clusters).

(** [y] can be reached from [x] through matrix elements of the operator. *)
Definition joined {X} (conn : X -> list X) : X -> X -> Prop :=
  clos_refl_trans X (fun x y => In y (conn x)).

(** Number of sites on which two configurations differ. *)
Definition differing (x z : list Z) : nat :=
  length (filter (fun i => negb (Z.eqb (nth i z 0%Z) (nth i x 0%Z))) (seq 0 (length x))).
