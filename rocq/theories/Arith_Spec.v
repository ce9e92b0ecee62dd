(** * What C117 says, without the model's functions *)
From Coq Require Import List Bool Arith.
From Verif Require Import Base Arith_Model.
Import ListNotations.

(** what is used of matrices and numbers *)
Record algebra_laws (G : algebra) : Prop := {
  l_comm : forall a b, madd G a b = madd G b a;
  l_central : forall c m, mmul G (num G c) m = mmul G m (num G c);
  l_neg : forall c, num G (cneg G c) = mmul G (num G c) (num G (cmone G))
}.

Section S.
Variable G : algebra.

(** the matrix that an operand stands for *)
Definition value (a : obj G) : M G :=
  match a with
  | Loc o | Spec _ o | Pauli o => o_mat o
  | Num c => num G c
  | Sqr o => mmul G (madj G (o_mat o)) (o_mat o)
  end.
Definition negative (m : M G) : M G := mmul G m (num G (cmone G)).

(** an operator whose is_hermitian is true *)
Definition honest (a : obj G) : Prop :=
  match a with
  | Loc o | Spec _ o | Pauli o => o_herm o = true -> madj G (o_mat o) = o_mat o
  | _ => True
  end.
Definition id_of (a : obj G) : option nat :=
  match a with Loc o | Spec _ o | Pauli o => Some (o_id o) | _ => None end.
(** operands are honest, one identity is one operator, and new objects have a new one *)
Definition operands (fresh : nat) (a b : obj G) : Prop :=
  honest a /\ honest b /\ id_of a <> Some fresh /\ id_of b <> Some fresh /\
  (id_of a <> None -> id_of a = id_of b -> a = b).

(** one is a LocalOperator, the other a special Hamiltonian, in this order *)
Definition local_special (a b : obj G) : Prop :=
  exists o k p, a = Loc o /\ b = Spec k p.
Definition both_special (a b : obj G) : Prop :=
  exists k o l p, a = Spec k o /\ b = Spec l p.
(** two special Hamiltonians of one class (C58) *)
Definition one_class (a b : obj G) : Prop :=
  exists k o p, a = Spec k o /\ b = Spec k p.

Definition space_of (a : obj G) : option nat :=
  match a with Loc o | Spec _ o | Pauli o | Sqr o => Some (o_space o) | Num _ => None end.

(** sums that are supported: an operator (not of Pauli strings) and a number, or two
    operators on one space of which one is a LocalOperator *)
Definition summable (a b : obj G) : Prop :=
  match a, b with
  | Loc _, Num _ | Num _, Loc _ | Spec _ _, Num _ | Num _, Spec _ _ => True
  | Loc _, Loc _ | Loc _, Spec _ _ | Spec _ _, Loc _ => space_of a = space_of b
  | _, _ => False
  end.
End S.
