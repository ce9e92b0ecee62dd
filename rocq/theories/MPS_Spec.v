(** * What a periodic matrix product state is *)
From Coq Require Import List Arith ZArith.
From Verif Require Import Base Rings MPS_Model.
Import ListNotations.

(** The chain read from site [r] onwards. *)
Definition rotated {A} (r : nat) (x : list A) : list A := skipn r x ++ firstn r x.

(** Evenly spaced local states a, a+s, a+2s, ... *)
Definition evenly (a s : Z) (d : nat) : list Z := map (fun i => (a + s * Z.of_nat i)%Z) (seq 0 d).

Section Spec.
  Variable C : cring.
  (** Entry (i, j) of a product of matrices given as functions. *)
  Fixpoint mprod (b : nat) (Ms : list (nat -> nat -> T C)) (i j : nat) : T C :=
    match Ms with
    | [] => if (i =? j)%nat then r1 C else r0 C
    | M :: Ms => fsum C b (fun k => rmul C (M i k) (mprod b Ms k j))
    end.
  Definition mtrace (b : nat) (Ms : list (nat -> nat -> T C)) : T C := fsum C b (fun i => mprod b Ms i i).

  (** Shape of the parameter: p sites in the unit cell, d local states. *)
  Definition kernel_shape (p d : nat) (k : kernel C) : Prop :=
    match k with
    | KFull k => length k = p /\ Forall (fun c => length c = d) k
    | KDiag k => length k = p /\ Forall (fun c => length c = d) k
    end.

  (** Entry (i, j) of the tensor of site n of the cell for local state s: parameter plus
      identity, diagonal if the parameter is. *)
  Definition tensor (k : kernel C) (n s i j : nat) : T C :=
    let one := if (i =? j)%nat then r1 C else r0 C in
    match k with
    | KFull k => radd C (nth j (nth i (nth s (nth n k []) []) []) (r0 C)) one
    | KDiag k => rmul C (radd C (nth i (nth s (nth n k []) []) (r0 C)) (r1 C)) one
    end.

  Definition cprod (l : list (T C)) : T C := fold_right (rmul C) (r1 C) l.
End Spec.
