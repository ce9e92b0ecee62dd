(** * Specification vocabulary for operations on Hilbert spaces *)
From Coq Require Import ZArith QArith List Bool.
From Verif Require Import Base Hilbert_Model Hilbert_Spec.
Import ListNotations.
Open Scope Z_scope.

(** Objects that the constructors can produce: an infinite Fock space has
    n_max = 2^63-1, and only infinite ones do; a tensor product has a factor. *)
Inductive built : hilbert -> Prop :=
| built_Fock_fin m N np : m < 2 ^ 63 - 1 -> built (Fock m true N np)
| built_Fock_inf N np : built (Fock (2 ^ 63 - 1) false N np)
| built_Spin s2 N t : built (Spin s2 N t)
| built_Qubit N : built (Qubit N)
| built_Custom ls N c : built (Custom ls N c)
| built_Tensor l : l <> [] -> Forall built l -> built (Tensor l)
| built_Doubled p : built p -> built (Doubled p).

(** The values allowed on every site of a homogeneous space. *)
Definition local_value (h : hilbert) (x : Z) : Prop :=
  match h with
  | Fock m finite _ _ => finite = true /\ 0 <= x <= m
  | Spin s2 _ _ => exists k, 0 <= k <= Z.of_nat s2 /\ x = - Z.of_nat s2 + 2 * k
  | Qubit _ => x = 0 \/ x = 1
  | Custom (Some ls) _ _ => In x ls
  | _ => False
  end.

(** ... and how many there are. *)
Definition n_local_values (h : hilbert) : Z :=
  match h with
  | Fock m _ _ _ => m + 1
  | Spin s2 _ _ => Z.of_nat s2 + 1
  | Qubit _ => 2
  | Custom (Some ls) _ _ => Z.of_nat (length ls)
  | _ => 0
  end.

Definition homogeneous (h : hilbert) : Prop :=
  match h with Tensor _ | Doubled _ => False | _ => True end.

Definition unconstrained (h : hilbert) : Prop :=
  match h with
  | Fock _ _ _ None | Spin _ _ None | Qubit _ | Custom _ _ None => True
  | _ => False
  end.

(** Number of sites, from the constructor arguments. *)
Fixpoint n_sites (h : hilbert) : nat :=
  match h with
  | Fock _ _ N _ | Spin _ N _ | Qubit N | Custom _ N _ => N
  | Tensor l => list_sum (map n_sites l)
  | Doubled p => n_sites p + n_sites p
  end.

(** [at_site h i g]: site [i] of [h] belongs to the homogeneous space [g]. *)
Inductive at_site : hilbert -> nat -> hilbert -> Prop :=
| at_homog h i : homogeneous h -> (i < n_sites h)%nat -> at_site h i h
| at_tensor_here h l i g : at_site h i g -> at_site (Tensor (h :: l)) i g
| at_tensor_later h l i g : at_site (Tensor l) i g ->
    at_site (Tensor (h :: l)) (n_sites h + i) g
| at_doubled_row p i g : at_site p i g -> at_site (Doubled p) i g
| at_doubled_col p i g : at_site p i g -> at_site (Doubled p) (n_sites p + i) g.

(** Remove from a configuration the entries at the listed positions; [i] is the
    position of the first entry. *)
Fixpoint remove_sites (sites : list Z) (i : Z) (s : list Z) : list Z :=
  match s with
  | [] => []
  | x :: s' => if existsb (Z.eqb i) sites then remove_sites sites (i + 1) s'
               else x :: remove_sites sites (i + 1) s'
  end.

(** Spaces whose local flips are specified: a CustomHilbert must list its values in
    strictly increasing order, a doubled space must double a homogeneous one. *)
Fixpoint increasing (l : list Z) : Prop :=
  match l with
  | x :: (y :: _) as t => x < y /\ increasing t
  | _ => True
  end.

Definition flippable_leaf (h : hilbert) : Prop :=
  match h with
  | Fock _ _ _ _ | Spin _ _ _ | Qubit _ => True
  | Custom (Some ls) _ _ => increasing ls
  | _ => False
  end.

Inductive flippable : hilbert -> Prop :=
| flippable_homog h : flippable_leaf h -> flippable h
| flippable_Tensor l : Forall flippable l -> flippable (Tensor l)
| flippable_Doubled p : flippable_leaf p -> flippable (Doubled p).

(** Finite spaces without constraints. *)
Fixpoint free (h : hilbert) : Prop :=
  match h with
  | Fock _ fin _ None => fin = true
  | Spin _ _ None | Qubit _ | Custom (Some _) _ None => True
  | Tensor l => fold_right (fun g P => free g /\ P) True l
  | Doubled p => free p
  | _ => False
  end.
