(** * Steady states (C51) *)
From Coq Require Import List.
From Verif Require Import Rings Steady_Model.
Open Scope nat_scope.

Section Spec.
  Variable C : cring.
  (** Only the zero vector has norm zero. *)
  Definition definite : Prop := forall n f,
    fsum C n (fun i => rmul C (rconj C (f i)) (f i)) = r0 C -> forall i, i < n -> f i = r0 C.
  (** [A v = 0] *)
  Definition kernel (n : nat) (A : nat -> nat -> T C) (v : nat -> T C) : Prop :=
    forall i, i < n -> fsum C n (fun j => rmul C (A i j) (v j)) = r0 C.
End Spec.
