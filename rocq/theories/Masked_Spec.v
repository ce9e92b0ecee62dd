(** * What it means to be autoregressive *)
From Coq Require Import List Arith.
From Verif Require Import Base Rings Masked_Model.
Import ListNotations.

(** [x] is an array of shape (n, c). *)
Definition shaped {A} (n c : nat) (x : list (list A)) : Prop :=
  length x = n /\ Forall (fun r => length r = c) x.

(** [x] is an array of shape (h, w, c). *)
Definition shaped2 {A} (h w c : nat) (x : list (list (list A))) : Prop :=
  length x = h /\ Forall (shaped w c) x.

(** The entries that the output at position [i] may depend on: those before [i], and
    also [i] itself if the layer is not exclusive. *)
Definition visible (exclusive : bool) (i j : nat) : Prop :=
  j < i \/ (exclusive = false /\ j = i).
Definition agree {A} (exclusive : bool) (i : nat) (x x' : list (list A)) : Prop :=
  forall j, visible exclusive i j -> nth j x [] = nth j x' [].

(** Raster order in two dimensions: row by row. *)
Definition visible2 (exclusive : bool) (p q : nat * nat) : Prop :=
  fst q < fst p \/ (fst q = fst p /\ snd q < snd p) \/ (exclusive = false /\ q = p).
Definition agree2 {A} (exclusive : bool) (p : nat * nat) (x x' : list (list (list A))) : Prop :=
  forall q, visible2 exclusive p q -> nth (snd q) (nth (fst q) x []) [] = nth (snd q) (nth (fst q) x' []) [].

(** The values at the first [i] sites coincide. *)
Definition same_before {A} (i : nat) (s s' : list A) : Prop := firstn i s = firstn i s'.
