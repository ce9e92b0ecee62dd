(** * Grids and their point group (netket/graph/common_lattices.py)

    Entries of matrices are exact.  [extent] and [pbc] have the same length (Lattice checks it). *)
From Coq Require Import List Arith Bool ZArith QArith Qcanon.
From Verif Require Import Base Rings LatGen_Model PointGp_Model SpaceGp_Model.
Import ListNotations.
Open Scope nat_scope.

(** itertools.permutations, in its order *)
Fixpoint picks {A} (l : list A) : list (A * list A) :=
  match l with
  | [] => []
  | x :: l => (x, l) :: map (fun yr => (fst yr, x :: snd yr)) (picks l)
  end.
Fixpoint permutations_of {A} (size : nat) (l : list A) : list (list A) :=
  match size with
  | O => [[]]
  | S size => flat_map (fun xr => map (cons (fst xr)) (permutations_of size (snd xr))) (picks l)
  end.

(** 25-29: _perm_symm; M[range(n), perm] = 1 *)
Definition perm_symm (perm : list nat) : res pgs :=
  pg_symmetry (length perm) (length perm) (fun i j => if Nat.eqb j (nth i perm 0) then 1%Qc else 0%Qc) None.
(** 32-35: _axis_reflection *)
Definition axis_reflection (axis ndim : nat) : res pgs :=
  pg_symmetry ndim ndim (fun i j => if Nat.eqb i j then (if Nat.eqb i axis then - (1) else 1)%Qc else 0%Qc) None.

(** 46-47: np.where(pbc, extent, -extent) *)
Definition kinds (extent : list Z) (pbc : list bool) : list Z :=
  map (fun ep => if (snd ep : bool) then fst ep else (- fst ep)%Z) (combine extent pbc).
(** 50: np.all(kind == kind[list(perm)]) *)
Definition same_kinds (kind : list Z) (perm : list nat) : bool :=
  forallb (fun i => Z.eqb (nth i kind 0%Z) (nth (nth i perm 0) kind 0%Z)) (seq 0 (length kind)).
(** 56-58: the loop over the axes *)
Fixpoint add_reflections (ndim : nat) (axes : list nat) (G : point_group) : res point_group :=
  match axes with
  | [] => Ok G
  | i :: axes =>
      let? r := axis_reflection i ndim in
      let? G := pg_group_product G (PG [EId; ESym r] ndim None) in
      add_reflections ndim axes G
  end.
(** 58: 0 or (extent - 1) / 2 *)
Definition origin_of (extent : list Z) (pbc : list bool) : vec :=
  fun i => if nth i pbc false then 0%Qc else Q2Qc (inject_Z (nth i extent 0%Z - 1) / 2)%Q.
(** 38-61: _grid_point_group *)
Definition grid_point_group (extent : list Z) (pbc : list bool) : res point_group :=
  let ndim := length extent in
  let perms := filter (same_kinds (kinds extent pbc)) (permutations_of ndim (seq 0 ndim)) in
  let? ps := mapM perm_symm perms in
  let? G := add_reflections ndim (seq 0 ndim) (PG (map ESym ps) ndim None) in
  match g_elems G with
  | [] => Err IndexError
  | _ :: es => pg_change_origin (PG (EId :: es) ndim None) (origin_of extent pbc)
  end.

(** 63-121: Grid: basis_vectors=np.eye(ndim), one site in the cell *)
Definition grid_geometry (extent : list Z) (pbc : list bool) : geometry :=
  let n := length extent in
  Geometry (map (fun i => map (fun j => if Nat.eqb i j then 1%Q else 0%Q) (seq 0 n)) (seq 0 n)) extent pbc [repeat 0%Q n].
Definition grid_lattice (extent : list Z) (pbc : list bool) : res glattice := gen_lattice (grid_geometry extent pbc).
(** space_group.py 98-111: the symmetries as maps of components *)
Definition as_psym (a : elem) : psym := match a with EId => PId | ESym p => PSym (basis_form eye eye p) end.
