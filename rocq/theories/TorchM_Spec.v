(** * What C121 says, without the model's functions *)
From Coq Require Import String List Bool Arith Reals.
From Verif Require Import Base TorchM_Model.
Import ListNotations.
Open Scope nat_scope.

(** same names, same kinds, same sizes *)
Definition same_layout (m m' : tmodule) : Prop :=
  Forall2 (fun p q => p_name p = p_name q /\ p_grad p = p_grad q /\ length (p_data p) = length (p_data q)) m m'.
(** parameters that are not trained keep their entries *)
Definition untrained_kept (m m' : tmodule) : Prop :=
  Forall2 (fun p q => p_grad p = false -> p = q) m m'.

(** the product of the conjugated derivatives with the vector, and its conjugate *)
Definition product (dre dim : nat -> nat -> R) (ns : nat) (vec : nat -> cpx) (k : nat) : cpx :=
  csum ns (fun n => cmul (cconj (dre n k, dim n k)) (vec n)).
Definition product_conj (dre dim : nat -> nat -> R) (ns : nat) (vec : nat -> cpx) (k : nat) : cpx :=
  csum ns (fun n => cmul (dre n k, dim n k) (cconj (vec n))).
