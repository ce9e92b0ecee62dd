(** * What state reconstruction is meant to do *)
From Coq Require Import List Arith ZArith Reals.
From Verif Require Import Base Rings ARNN_Model ToArray_Model Estim_Model Estim_Spec Balance_Spec LegQsr_Model.
Import ListNotations.
Open Scope R_scope.

(** [U b] is the matrix of rotation [b] on the [N] basis states. *)
Definition rotations (N : nat) (U : nat -> nat -> nat -> cpx) (rots : list conn_of) : Prop :=
  forall b conn, nth_error rots b = Some conn -> describes N (U b) conn.
Definition unitary (N : nat) (O : nat -> nat -> cpx) : Prop :=
  forall s t, (s < N)%nat -> (t < N)%nat ->
    fsum cC N (fun x => rmul cC (rconj cC (O x s)) (O x t)) = if (s =? t)%nat then (1, 0) else (0, 0).

(** A measurement: an outcome and the basis it was made in; its amplitude <x|U_b|psi>. *)
Definition measured (N : nat) (U : nat -> nat -> nat -> cpx) (log_psi : nat -> cpx) (d : nat * nat) : cpx :=
  apply_op N (U (snd d)) (psi_of log_psi) (fst d).
(** Born probability of the measurement *)
Definition chance (N : nat) (U : nat -> nat -> nat -> cpx) (log_psi : nat -> cpx) (d : nat * nat) : R :=
  cnorm2 (measured N U log_psi d) / norm2_of N (psi_of log_psi).

Definition average {X} (f : X -> R) (l : list X) : R := rsum f l / INR (length l).
(** - < log p > over a list of measurements *)
Definition neg_log_likelihood (N : nat) (U : nat -> nat -> nat -> cpx) (log_psi : nat -> cpx) (data : list (nat * nat)) : R :=
  - average (fun d => ln (chance N U log_psi d)) data.

(** A family of states through the present one whose parameters move with velocity [v]; the
    logarithmic derivatives of the machine are those of the family. *)
Definition moves (N : nat) (m : qmach) (v : nat -> cpx) (log_psi : R -> nat -> cpx) (t0 : R) : Prop :=
  (forall s, (s < N)%nat -> log_psi t0 s = q_log m s) /\
  (forall s, (s < N)%nat -> cderiv (fun t => log_psi t s) t0
     (fsum cC (q_npar m) (fun k => rmul cC (entry (q_der m s) k) (v k)))).
(** The change of a function with (complex) gradient [d], per unit of time: the real part of
    the scalar product of [d] and [v]. *)
Definition slope (n : nat) (d : list cpx) (v : nat -> cpx) : R :=
  fst (fsum cC n (fun k => rmul cC (rconj cC (entry d k)) (v k))).

(** The training set. *)
Definition training_set (N : nat) (rots : list conn_of) (ts bs : list nat) : Prop :=
  length bs = length ts /\ Forall (fun x => (x < N)%nat) ts /\ Forall (fun b => (b < length rots)%nat) bs.
(** Input of one rank: [n] sweeps of [batch] chains, [k] positions in the training set. *)
Definition shaped (N n batch k : nat) (ts : list nat) (r : rank_in) : Prop :=
  length (i_samples r) = n /\
  Forall (fun l => length l = batch /\ Forall (fun s => (s < N)%nat) l) (i_samples r) /\
  length (i_ind r) = k /\ Forall (fun i => (i < length ts)%nat) (i_ind r) /\
  length (i_grads r) = n /\ length (i_data_grads r) = k.
Definition all_samples (ranks : list rank_in) : list nat := flat_map (fun r => concat (i_samples r)) ranks.
Definition pick (ts bs : list nat) (i : nat) : nat * nat := (nth i ts 0%nat, nth i bs 0%nat).
Definition all_drawn (ts bs : list nat) (ranks : list rank_in) : list (nat * nat) :=
  flat_map (fun r => map (pick ts bs) (i_ind r)) ranks.

(** ** Random inputs: finitely many outcomes with their probabilities *)
Definition weights {X} (O : list (R * X)) : Prop := Forall (fun o => 0 <= fst o) O /\ rsum fst O = 1.
Definition probability {X} (O : list (R * X)) (P : X -> bool) : R := rsum (fun o => if P (snd o) then fst o else 0) O.
Definition no_rank : rank_in := RankIn [] [] [] [].
Definition sample_at (r i j : nat) (ranks : list rank_in) : nat := nth j (nth i (i_samples (nth r ranks no_rank)) []) 0%nat.
Definition drawn_at (r i : nat) (ranks : list rank_in) : nat := nth i (i_ind (nth r ranks no_rank)) 0%nat.
(** Each configuration sampled from the machine follows the Born distribution and each
    position in the training set is uniform; nothing is asked of their joint law. *)
Definition sampled (N nodes n batch k : nat) (ts : list nat) (log_psi : nat -> cpx) (O : list (R * list rank_in)) : Prop :=
  (forall r i j s, (r < nodes)%nat -> (i < n)%nat -> (j < batch)%nat -> (s < N)%nat ->
     probability O (fun w => (sample_at r i j w =? s)%nat) = born N (psi_of log_psi) s) /\
  (forall r i q, (r < nodes)%nat -> (i < k)%nat -> (q < length ts)%nat ->
     probability O (fun w => (drawn_at r i w =? q)%nat) = / INR (length ts)).
(** mean of a vector that depends on the outcome *)
Definition mean_of_vectors {X} (n : nat) (O : list (R * X)) (f : X -> list cpx) : list cpx :=
  map (fun k => (rsum (fun o => fst o * fst (entry (f (snd o)) k)) O, rsum (fun o => fst o * snd (entry (f (snd o)) k)) O)) (seq 0 n).
