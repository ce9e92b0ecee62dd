(** * Weighted sums of tensor products of Pauli matrices *)
From Coq Require Import ZArith List Bool.
From Verif Require Import Base Scalar LocalOp_Spec Pauli_Model.
Import ListNotations.

Definition qubits (n : nat) : list (list Z) := repeat [0%Z; 1%Z] n.

Section Spec.
Variable S : scalars.
Variable im : K S.

(** identity and Pauli matrices in the basis 0, 1 *)
Definition pauli_matrix (p : letter) : list (list (K S)) :=
  let o := k0 S in let l := k1 S in
  match p with
  | LX => [[o; l]; [l; o]]
  | LY => [[o; kopp S im]; [im; o]]
  | LZ => [[l; o]; [o; kopp S l]]
  | _ => [[l; o]; [o; l]]
  end.

(** <x| P_1 (x) ... (x) P_n |y> *)
Fixpoint string_element (op : list letter) (x y : list Z) : K S :=
  match op, x, y with
  | p :: op, a :: x, b :: y =>
      kmul S (entry S (pauli_matrix p) (Z.to_nat a) (Z.to_nat b)) (string_element op x y)
  | _, _, _ => k1 S
  end.

Definition strings_element (terms : list (list letter * K S)) (x y : list Z) : K S :=
  sum S (map (fun t => kmul S (snd t) (string_element (fst t) x y)) terms).

Definition valid_strings (n : nat) (ops : list (list letter)) : Prop :=
  ops <> [] /\ (0 < n)%nat /\ Forall (fun op => length op = n /\ ~ In Other op) ops.
End Spec.
