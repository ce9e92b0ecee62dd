(** What C86 means, independently of the implementation. *)
From Coq Require Import List Arith Bool ZArith QArith Qcanon Qabs.
From Verif Require Import Base Rings FloatCmp_Model FloatCmp_Spec LatGen_Model PointGp_Model.
Import ListNotations.
Open Scope nat_scope.

(** equality of vectors and matrices of dimension n *)
Definition veq (n : nat) (x y : vec) : Prop := forall i, i < n -> x i = y i.
Definition meq (n : nat) (A B : mat) : Prop := forall i j, i < n -> j < n -> A i j = B i j.
Definition orthogonal (n : nat) (W : mat) : Prop := meq n (mmul n (tr W) W) eye.
(** what the constructor checks *)
Definition nearly_orthogonal (n : nat) (W : mat) : Prop :=
  forall i j, i < n -> j < n ->
  (Qabs (this (mmul n (tr W) W i j) - this (eye i j)) <= (1 # 100000000) + (1 # 100000) * Qabs (this (eye i j)))%Q.
Definition proper_map (p : pgs) : Prop := orthogonal (p_n p) (p_W p).
Definition good (n : nat) (a : elem) : Prop := match a with EId => True | ESym p => p_n p = n /\ proper_map p end.
(** the same map *)
Definition same_map (n : nat) (a b : elem) : Prop := forall x, veq n (e_act a x) (e_act b x).

(** integer combinations of the lattice vectors, the rows of [U] *)
Definition lattice_vector (n : nat) (U : mat) (v : vec) : Prop :=
  exists m : nat -> Z, forall i, i < n -> v i = qs n (fun k => (Q2Qc (inject_Z (m k)) * U k i)%Qc).
Definition inverse_of (n : nat) (A B : mat) : Prop := meq n (mmul n A B) eye /\ meq n (mmul n B A) eye.

(** the same affine map, up to a lattice vector if there is a unit cell *)
Definition equal_mod (G : point_group) (W : mat) (w : vec) (W' : mat) (w' : vec) : Prop :=
  meq (g_ndim G) W W' /\
  match g_cell G with
  | None => veq (g_ndim G) w w'
  | Some (U, _) => lattice_vector (g_ndim G) U (fun i => w i - w' i)%Qc
  end.
Definition near (a b : Qc) : Prop := (Qabs (this a - this b) <= width)%Q.
(** nearly the same: entries agree up to the width of the bins *)
Definition nearly (G : point_group) (W : mat) (w : vec) (W' : mat) (w' : vec) : Prop :=
  (forall i j, i < g_ndim G -> j < g_ndim G -> near (W i j) (W' i j)) /\
  match g_cell G with
  | None => forall i, i < g_ndim G -> near (w i) (w' i)
  | Some (U, inv) => forall j, j < g_ndim G -> exists m : Z,
      (Qabs (this (qs (g_ndim G) (fun k => w k * inv k j)%Qc) - this (qs (g_ndim G) (fun k => w' k * inv k j)%Qc) - inject_Z m) <= width)%Q
  end.
Definition valid_cell (G : point_group) : Prop :=
  match g_cell G with None => True | Some (U, inv) => inverse_of (g_ndim G) U inv end.
(** [W] maps lattice vectors to lattice vectors *)
Definition keeps_lattice (G : point_group) (W : mat) : Prop :=
  match g_cell G with
  | None => True
  | Some (U, _) => forall v, lattice_vector (g_ndim G) U v -> lattice_vector (g_ndim G) U (mvec (g_ndim G) W v)
  end.
Definition el (G : point_group) (i : nat) : elem := nth i (g_elems G) EId.
(** no two elements are nearly the same *)
Definition distinct (G : point_group) : Prop :=
  forall i j, i < length (g_elems G) -> j < length (g_elems G) ->
  nearly G (e_matrix (el G i)) (e_translation (el G i)) (e_matrix (el G j)) (e_translation (el G j)) -> i = j.
