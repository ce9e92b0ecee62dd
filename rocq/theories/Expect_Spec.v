(** * Expectation values of a distribution depending on a parameter *)
From Coq Require Import List Arith Reals Permutation.
From Verif Require Import Rings Estim_Model Expect_Model.
Import ListNotations.
Open Scope R_scope.

(** sum of exp(log_pdf) f over sum of exp(log_pdf) *)
Definition mean_under (N : nat) (log_pdf f : nat -> R) : R :=
  fsum rR N (fun s => exp (log_pdf s) * f s) / fsum rR N (fun s => exp (log_pdf s)).
(** every configuration with its probability, on any rank *)
Definition fully_sampled (N : nat) (log_pdf : nat -> R) (ranks : list rank_samples) : Prop :=
  Permutation (concat ranks) (map (fun s => (exp (log_pdf s) / fsum rR N (fun s => exp (log_pdf s)), s)) (seq 0 N)).
