(** * What EarlyStopping and Timeout promise *)
From Coq Require Import List ZArith QArith Bool.
From Verif Require Import Callbacks_Model.
Import ListNotations.
Open Scope Z_scope.

(** A history of calls, oldest first: step and loss. *)
Definition history := list (Z * Q).
(** The same, as the calls see it. *)
Definition fin_hist (h : history) : list (Z * fl) := map (fun p => (fst p, Fin (snd p))) h.
(** The steps do not decrease. *)
Definition ordered (h : history) : Prop :=
  forall i j a b, (i < j)%nat -> nth_error h i = Some a -> nth_error h j = Some b -> fst a <= fst b.

(** Call [m] improves the loss by more than [delta]: it is lower by more than that than
    at all earlier calls. *)
Definition improves (delta : Q) (h : history) (m : nat) : Prop :=
  exists b, nth_error h m = Some b /\
    forall i a, (i < m)%nat -> nth_error h i = Some a -> (snd b < snd a - delta)%Q.
(** Call [m] has the lowest loss so far, or the same as the lowest. *)
Definition lowest (h : history) (m : nat) : Prop :=
  exists b, nth_error h m = Some b /\
    forall i a, (i < m)%nat -> nth_error h i = Some a -> (snd b <= snd a)%Q.
(** At call [n] fewer than [patience] steps have passed since call [m]. *)
Definition within (patience : Z) (h : history) (m n : nat) : Prop :=
  exists a b, nth_error h m = Some a /\ nth_error h n = Some b /\ (m <= n)%nat /\ fst b - fst a < patience.
Definition hits (baseline : option Q) (h : history) (n : nat) : Prop :=
  exists b q, baseline = Some q /\ nth_error h n = Some b /\ (snd b <= q)%Q.
