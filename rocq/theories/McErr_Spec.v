(** * Random chains *)
From Coq Require Import List ZArith QArith Qcanon Arith.
From Verif Require Import MpiStats_Model MpiStats_Spec McStats_Model McStats_Spec.
Import ListNotations.
Open Scope Qc_scope.

(** A random experiment: outcomes (what all ranks hold) with their probabilities. *)
Definition chains_experiment := list (Qc * list (list (list cplx))).
Definition emean (E : chains_experiment) (f : list (list (list cplx)) -> Qc) : Qc := qsum (map (fun o => fst o * f (snd o)) E).
(** Deviation of the mean of chain [i] from [mu] *)
Definition deviation (mu : cplx) (i : nat) (ranks : list (list (list cplx))) : cplx :=
  csub (gmean (nth i (concat ranks) [])) mu.
Definition dot (a b : cplx) : Qc := fst a * fst b + snd a * snd b.
(** The means of any two chains fluctuate independently around [mu]. *)
Definition chains_uncorrelated (mu : cplx) (m : nat) (E : chains_experiment) : Prop :=
  forall i j, (i < m)%nat -> (j < m)%nat -> i <> j -> emean E (fun r => dot (deviation mu i r) (deviation mu j r)) = 0.
