(** * Unrelated keys *)
From Coq Require Import List Arith ZArith.
From Verif Require Import Keys_Model.
Import ListNotations.

(** [b] is [a], or was obtained from [a] by splitting *)
Fixpoint derived (a b : key) : Prop := a = b \/ match b with Seed _ => False | Child k _ _ => derived a k end.
Definition related (a b : key) : Prop := derived a b \/ derived b a.
(** No key is used twice, and none is obtained from another one that is used. *)
Definition unrelated (ks : list key) : Prop := ForallOrdPairs (fun a b => ~ related a b) ks.

(** A rule uses its key, or keys obtained from it, properly. *)
Definition proper_rule (tr : key -> list key) : Prop := forall k, Forall (derived k) (tr k) /\ unrelated (tr k).
Definition proper_sampler (s : sampler) : Prop :=
  match s with Metropolis _ tr _ | Tempering tr _ => proper_rule tr | _ => True end.
