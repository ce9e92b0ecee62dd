(** * Vocabulary for the legacy samplers *)
From Coq Require Import List ZArith Bool Reals Permutation.
From Verif Require Import Base Balance_Spec Rules_Model Rules_Spec LegSamp_Model.
Import ListNotations.
Open Scope R_scope.

(** |psi(x)|^p, from the logarithm of |psi|. *)
Definition weight {X} (log_psi : X -> R) (p : R) (x : X) : R := Rpower (exp (log_psi x)) p.

(** The accept test of a sampler at power [p], with corrections [c]. *)
Definition leg_test {X} (log_psi : X -> R) (p : R) (c : X -> X -> R) (x y : X) (u : R) : Prop :=
  u < exp (p * (log_psi y - log_psi x + c x y)).

(** Proposal probabilities of the local and the exchange kernel, every drawn integer being
    equally likely. *)
Definition leg_local_T (ls : list Z) (n : nat) (x y : cfg) : R :=
  rsum (fun i => / INR n *
          uniform_prob (seq 0 (length ls - 1)) (fun r => leg_local_move (leg_local_states ls) i r x) y)
       (seq 0 n).
Definition leg_exchange_T (clusters : list (nat * nat)) (x y : cfg) : R :=
  uniform_prob clusters (fun c => leg_exchange_move c x) y.

(** All clusters name two of [n] sites. *)
Definition on_sites_nat (n : nat) (clusters : list (nat * nat)) : Prop :=
  Forall (fun c => (fst c < n)%nat /\ (snd c < n)%nat) clusters.

(** Number of configurations connected to [x]; the correction log(N(x) / N(y)). *)
Definition n_of (conn : cfg -> list cfg) (x : cfg) : R := INR (length (conn x)).
Definition ham_corr (conn : cfg -> list cfg) (x y : cfg) : R := ln (n_of conn x) - ln (n_of conn y).

(** All configurations of [n] sites with the given local values. *)
Definition local_cfg (ls : list Z) (n : nat) (x : cfg) : Prop := length x = n /\ Forall (fun v => In v ls) x.

(** ** Histories of a Metropolis sampler *)
Section Histories.
  Context {Par : Type}.
  (** Whether the sampler has been reset since its parameters or its number of chains were
      last changed ([b]: before the operations). *)
  Fixpoint up_to_date (b : bool) (ops : list (op Par)) : bool :=
    match ops with
    | [] => b
    | Reset _ :: ops | Generate _ _ :: ops => up_to_date true ops
    | SetPar _ :: ops => up_to_date false ops
    | SetChains n :: ops => up_to_date (if (n <? 0)%Z then b else false) ops
    | _ :: ops => up_to_date b ops
    end.

  (** Sweep sizes given by the user are not negative; the number of chains is never changed. *)
  Definition proper (o : op Par) : Prop :=
    match o with
    | SetSweep (Some n) => (0 <= n)%Z
    | SetChains _ => False
    | _ => True
    end.
End Histories.

(** Decisions of one sweep over the chains. *)
Fixpoint where_true {A} (ds : list bool) (new old : list A) : list A :=
  match ds, new, old with
  | d :: ds, y :: new, x :: old => (if d then y else x) :: where_true ds new old
  | _, _, _ => []
  end.
Fixpoint count_true (ds : list bool) : Z :=
  match ds with [] => 0%Z | d :: ds => ((if d then 1 else 0) + count_true ds)%Z end.

(** The next [n] numbers of a generator. *)
Fixpoint draws {Gen} (unif : Gen -> Gen * R) (n : nat) (g : Gen) : list R :=
  match n with O => [] | S n => let '(g, u) := unif g in u :: draws unif n g end.

(** The uses of a kernel: as many proposals, as many random configurations as chains. *)
Definition keeps_chains {Gen} (k_move : Gen -> list cfg -> Gen * list (cfg * R))
    (k_random : Gen -> nat -> Gen * list cfg) : Prop :=
  (forall g xs, length (snd (k_move g xs)) = length xs) /\
  (forall g n, length (snd (k_random g n)) = n).

(** ** Parallel tempering *)

(** Logarithm of the joint weight of the replicas: sum of p * beta_i * log|psi(x_i)|. *)
Definition joint (p : R) (lv beta : list R) : R :=
  exp (rsum (fun i => p * nth i beta 0 * nth i lv 0) (seq 0 (length beta))).

(** The inverse temperatures of replicas [a] and [b] exchanged. *)
Definition exchanged (a b : nat) (beta beta' : list R) : Prop :=
  length beta' = length beta /\ nth a beta' 0 = nth b beta 0 /\ nth b beta' 0 = nth a beta 0 /\
  forall i, i <> a -> i <> b -> nth i beta' 0 = nth i beta 0.

(** Mean and sum of squared deviations of positions. *)
Definition mean_of (l : list nat) : R := rsum INR l / INR (length l).
Definition sq_dev (l : list nat) : R := rsum (fun x => (INR x - mean_of l) * (INR x - mean_of l)) l.

(** The states after each of [n] steps. *)
Fixpoint trace {A} (step : A -> A) (n : nat) (s : A) : list A :=
  match n with O => [] | S n => step s :: trace step n (step s) end.

(** ** Exact sampling *)

(** The normalised probabilities |psi_k|^p / sum |psi|^p of amplitudes [amps] > 0. *)
Definition exact_law (amps : list R) (p : R) (prob : list R) : Prop :=
  length prob = length amps /\
  (forall k, (k < length amps)%nat ->
     nth k prob 0 * rsum (fun a => Rpower a p) amps = Rpower (nth k amps 0) p) /\
  rsum (fun q => q) prob = 1.
