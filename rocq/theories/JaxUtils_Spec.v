(** * Trees of numbers, Jacobians *)
From Coq Require Import List Arith Reals.
From Verif Require Import Base Rings ARNN_Model ToArray_Model Estim_Model Estim_Spec JaxUtils_Model.
Import ListNotations.
Open Scope R_scope.

(** Leaves of a real type hold real numbers. *)
Definition proper_leaf (l : leaf) : Prop := l_complex l = false -> Forall (fun z => snd z = 0) (l_vals l).
Definition proper_tree (t : tree) : Prop := Forall proper_leaf t.
(** All the numbers of a tree, in order. *)
Definition numbers (t : tree) : list cpx := concat (map l_vals t).
(** The same numbers of leaves and of entries in each. *)
Definition same_shape (a b : tree) : Prop := map (fun l => length (l_vals l)) a = map (fun l => length (l_vals l)) b.
Definition all_type (c : bool) (t : tree) : Prop := Forall (fun l => l_complex l = c) t.

(** Real input: the outputs have derivatives ux + i vx.  Complex input: the function is
    holomorphic with derivative ux + i vx (Cauchy-Riemann). *)
Definition derivative (j : jac) (i : nat) : cpx := (ux j i, vx j i).
Definition holomorphic (m : nat) (j : jac) : Prop := forall i, (i < m)%nat -> uy j i = - vx j i /\ vy j i = ux j i.
Definition real_function (m : nat) (j : jac) : Prop := forall i, (i < m)%nat -> vx j i = 0 /\ vy j i = 0.

(** y^T J, conjugated if asked. *)
Definition pullback (m : nat) (conjugate : bool) (j : jac) (y : nat -> cpx) : cpx :=
  let z := fsum cC m (fun i => rmul cC (y i) (derivative j i)) in
  if conjugate then rconj cC z else z.
