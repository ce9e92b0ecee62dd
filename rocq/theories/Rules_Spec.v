(** * Proposal probabilities of the rules *)
From Coq Require Import List ZArith Reals Permutation.
From Verif Require Import Base Hilbert_Model HilbertOps_Spec HilbertOps_Model Balance_Spec Rules_Model.
Import ListNotations.
Open Scope R_scope.

Definition cfg_eqd : forall x y : cfg, {x = y} + {x <> y} := list_eq_dec Z.eq_dec.

(** Probability that [f d = y] when [d] is one of the [draws], equally likely. *)
Definition uniform_prob {D} (draws : list D) (f : D -> cfg) (y : cfg) : R :=
  INR (count_occ cfg_eqd (map f draws) y) / INR (length draws).

(** A configuration of a space as far as the single sites are concerned: the right
    number of sites, every site has one of its local values.  (No global constraint.) *)
Definition site_valid (h : hilbert) (x : cfg) : Prop :=
  length x = n_sites h /\
  forall i g, at_site h i g -> local_value g (nth i x 0%Z).

(** LocalRule: a site drawn uniformly, then one of the [m-1] values of the random
    integer; [leaf i] is the homogeneous space to which site [i] belongs. *)
Definition local_T (h : hilbert) (leaf : nat -> hilbert) (x y : cfg) : R :=
  rsum (fun i => / INR (n_sites h) *
          uniform_prob (map Z.of_nat (seq 0 (Z.to_nat (n_local_values (leaf i) - 1))))
                       (fun k => local_move h i k x) y)
       (seq 0 (n_sites h)).

(** LocalRuleNumpy on a homogeneous space with the given local states. *)
Definition np_local_T (ls : list Z) (n : nat) (x y : cfg) : R :=
  rsum (fun i => / INR n *
          uniform_prob (seq 0 (length ls - 1)) (fun r => np_local_move ls i r x) y)
       (seq 0 n).

(** ExchangeRule: a cluster drawn uniformly. *)
Definition exchange_T (clusters : list (Z * Z)) (x y : cfg) : R :=
  uniform_prob clusters (fun c => exchange_move c x) y.

(** HamiltonianRule: one of the connected configurations. *)
Definition ham_T (conn : cfg -> list cfg) (x y : cfg) : R :=
  uniform_prob (conn x) (fun c => c) y.

(** All clusters name two sites of an [n]-site system. *)
Definition on_sites (n : nat) (clusters : list (Z * Z)) : Prop :=
  Forall (fun c => (0 <= fst c < Z.of_nat n)%Z /\ (0 <= snd c < Z.of_nat n)%Z) clusters.
