(** * Expressions over the caller's arrays in which no two terms of a constructor call act
    on the same set of sites, and every array mentioned exists *)
From Coq Require Import List Permutation.
From Verif Require Import Base Scalar OpHeap_Model.
Import ListNotations.

Fixpoint different_sites {S} (n : nat) (e : hexpr S) : Prop :=
  match e with
  | HNew _ _ ts =>
      Forall (fun t => fst t < n) ts /\
      ForallOrdPairs (fun s t => ~ Permutation (snd s) (snd t)) ts
  | HPlus _ a b | HMinus _ a b => different_sites n a /\ different_sites n b
  | HPlusNum _ a _ _ | HTimes _ a _ _ | HNeg _ a | HTransp _ a | HConj _ a =>
      different_sites n a
  end.
