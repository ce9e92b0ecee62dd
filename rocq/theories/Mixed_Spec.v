(** * Density matrices and their expectation values *)
From Coq Require Import List ZArith Bool Reals.
From Verif Require Import Base MCState_Model MCState_Spec Rings ARNN_Model ToArray_Model Estim_Model Estim_Spec Mixed_Model.
Import ListNotations.
Open Scope R_scope.

(** Matrix element with logarithm u + i v. *)
Definition rho_of (log_rho : nat -> nat -> cpx) (r c : nat) : cpx :=
  (exp (fst (log_rho r c)) * cos (snd (log_rho r c)), exp (fst (log_rho r c)) * sin (snd (log_rho r c))).
Definition mat_mul (N : nat) (A B : nat -> nat -> cpx) (r c : nat) : cpx := fsum cC N (fun k => rmul cC (A r k) (B k c)).
Definition trace (N : nat) (A : nat -> nat -> cpx) : cpx := fsum cC N (fun k => A k k).
(** Tr(rho O) / Tr(rho), for a matrix of real trace *)
Definition mixed_expectation (N : nat) (O rho : nat -> nat -> cpx) : cpx :=
  over (trace N (mat_mul N rho O)) (fst (trace N rho)).
(** the diagonal elements are real and positive *)
Definition positive_diagonal (N : nat) (rho : nat -> nat -> cpx) : Prop :=
  forall s, (s < N)%nat -> snd (rho s s) = 0 /\ 0 < fst (rho s s).

(** Full sampling of an unnormalised distribution: every configuration with its
    probability. *)
Definition full_of (N : nat) (w : nat -> R) : list (R * nat) := map (fun s => (w s / fsum rR N w, s)) (seq 0 N).
(** what a sampler with this machine_pow draws from: |exp(log)|^pow *)
Definition sampled_weight (pow : nat) (log : nat -> cpx) (s : nat) : R := exp (fst (log s)) ^ pow.

(** The diagonal sampler after a history. *)
Fixpoint diag_sampler {Par MSt RS} (ops : list (mixed_op Par MSt RS)) (sd : sampler) : sampler :=
  match ops with
  | [] => sd
  | XSamplerDiag sm :: ops => diag_sampler ops sm
  | _ :: ops => diag_sampler ops sd
  end.
(** The variables assigned last. *)
Fixpoint mixed_current {Par MSt RS} (ops : list (mixed_op Par MSt RS)) (v : MSt * Par) : MSt * Par :=
  match ops with
  | [] => v
  | XMain (OPar p) :: ops => mixed_current ops (fst v, p)
  | XMain (OMst m) :: ops => mixed_current ops (m, snd v)
  | XMain (OVars w) :: ops => mixed_current ops w
  | _ :: ops => mixed_current ops v
  end.
(** no request for another number of samples than the one set, no other sampler *)
Definition plain_mixed {Par MSt RS} (op : mixed_op Par MSt RS) : bool :=
  match op with
  | XMain o => plain o
  | XSamplerDiag _ => false
  | XDiagSample (Some _) _ _ | XDiagSample _ (Some _) _ => false
  | _ => true
  end.
