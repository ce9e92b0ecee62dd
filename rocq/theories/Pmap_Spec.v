(** * Chains spread over devices *)
From Coq Require Import List ZArith Bool QArith.
From Verif Require Import Base Metro_Model Metro_Spec Pmap_Model.
Import ListNotations.
Open Scope Z_scope.

(** [t] is the least multiple of [m] which is at least [n]. *)
Definition least_multiple (m n t : Z) : Prop := (m | t) /\ n <= t /\ forall u, (m | u) -> n <= u -> t <= u.
(** [t] is a multiple of [m] nearest to [n]. *)
Definition nearest_multiple (m n t : Z) : Prop := (m | t) /\ forall u, (m | u) -> Z.abs (t - n) <= Z.abs (u - n).

Open Scope nat_scope.
(** Chain [c] of device [d] is chain [d * per_device + c] of the sampler. *)
Definition chain_of {Cfg} (per_device d c : nat) (batch : list Cfg) : option Cfg := nth_error batch (d * per_device + c).

(** The keys of all devices of all ranks. *)
Definition all_keys {Key} (splitn : Key -> nat -> list Key) (n_devices : nat) (keys : list Key) : list Key :=
  flat_map (fun k => splitn k n_devices) keys.
