(** * What a linear layer should compute *)
From Coq Require Import List.
From Verif Require Import Base Dense_Model.
Import ListNotations.

(** [i] is an index of an array of shape [s]. *)
Definition index_of (s i : list nat) : Prop := Forall2 lt i s.

(** sum of [f a] over all indices [a] of an array of shape [s], nested *)
Fixpoint nested_sum {A} (zero : A) (add : A -> A -> A) (s : list nat) (f : list nat -> A) : A :=
  match s with
  | [] => f []
  | n :: s => fold_right add zero (map (fun i => nested_sum zero add s (fun a => f (i :: a))) (seq 0 n))
  end.
