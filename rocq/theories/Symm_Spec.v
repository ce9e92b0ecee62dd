(** * What equivariance means *)
From Coq Require Import List Arith.
From Verif Require Import Group_Spec Rings Symm_Model.
Import ListNotations.

(** A set of permutations of [n] sites that is a group, without repetitions. *)
Definition permutation_group (n : nat) (rows : list (list nat)) : Prop :=
  Forall (isperm n) rows /\ is_group n rows /\ NoDup rows.

(** [L] is left multiplication by [k] on the indices of group elements. *)
Definition translation (rows : list (list nat)) (k : list nat) (L : nat -> nat) : Prop :=
  forall h, h < length rows -> L h < length rows /\ nth (L h) rows [] = times k (nth h rows []).

(** [q h g] is the index of h^-1 g. *)
Definition quotients (n : nat) (rows : list (list nat)) (q : nat -> nat -> nat) : Prop :=
  forall h g p, h < length rows -> g < length rows -> inverses n (nth h rows []) p ->
    q h g < length rows /\ nth (q h g) rows [] = times p (nth g rows []).

(** A feature map with its poses moved by [L]: entry [h] is entry [L h] of the original. *)
Definition moved {A} (d : A) (L : nat -> nat) (x : list (list A)) : list (list A) :=
  map (fun row => map (fun h => nth (L h) row d) (seq 0 (length row))) x.

(** Entry (k, f) of the masked kernel of a symmetric layer. *)
Definition weight (C : cring) (features : nat) (kernel : list (T C)) (mask : option (list (T C))) (k f : nat) : T C :=
  let w := nth (k * features + f) kernel (r0 C) in
  match mask with None => w | Some m => rmul C w (nth k m (r0 C)) end.

(** Entry (o, i, t) of the masked kernel of an equivariant layer. *)
Definition weight3 (C : cring) (n in_features : nat) (kernel : list (T C)) (mask : option (list (T C)))
    (o i t : nat) : T C :=
  let w := nth ((o * in_features + i) * n + t) kernel (r0 C) in
  match mask with None => w | Some m => rmul C w (nth t m (r0 C)) end.

Definition biased (C : cring) (bias : option (nat -> T C)) (f : nat) (v : T C) : T C :=
  match bias with None => v | Some b => radd C v (b f) end.

(** Consecutive layers fit: [c] input features, kernels of the declared shapes. *)
Fixpoint fits_stack {C : cring} (n : nat) (ls : list (eq_layer C)) (c : nat) : Prop :=
  match ls with
  | [] => True
  | l :: ls => e_in l = c /\ length (e_kernel l) = e_out l * e_in l * n /\ fits_stack n ls (e_out l)
  end.
