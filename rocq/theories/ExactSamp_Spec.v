(** * Direct sampling from the squared amplitudes *)
From Coq Require Import List Arith ZArith QArith.
From Verif Require Import Base Hilbert_Model Hilbert_Spec ARSamp_Spec ExactSamp_Model.
Import ListNotations.
Open Scope Q_scope.

Definition amplitudes (N : nat) (amps : list Q) : Prop :=
  length amps = N /\ Forall (fun a => 0 <= a) amps /\ Exists (fun a => 0 < a) amps.
(** probability of the configuration with number [i] *)
Definition born (amps : list Q) (pow i : nat) : Q :=
  qpow (nth i amps 0) pow / qsum (map (fun a => qpow a pow) amps).
(** probability of the configurations with smaller numbers *)
Definition born_below (amps : list Q) (pow i : nat) : Q :=
  qsum (map (fun j => born amps pow j) (seq 0 i)).
(** draws in an interval whose length is the probability of [i] *)
Definition drawn (amps : list Q) (pow i : nat) (u : Q) : Prop :=
  1 - born_below amps pow i - born amps pow i <= u /\ u < 1 - born_below amps pow i.

(** the wave function the sampler was last reset with *)
Fixpoint last_reset (ops : list es_op) (acc : option (list Q * nat)) : option (list Q * nat) :=
  match ops with
  | [] => acc
  | EReset amps pow :: ops => last_reset ops (Some (amps, pow))
  | _ :: ops => last_reset ops acc
  end.
