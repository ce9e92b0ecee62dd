(** * Space groups (netket/graph/space_group.py)

    Positions are given by their components with respect to the basis vectors (LatGen_Model);
    the preimage under a point-group symmetry is an affine map of the components, with
    rational coefficients.  Names and the displacement vectors stored in Translation objects
    are not modelled. *)
From Coq Require Import List Arith Bool ZArith QArith Qcanon.
From Verif Require Import Base Rings FloatCmp_Model Lattice_Model LatGen_Model PointGp_Model Group_Model.
Import ListNotations.
Open Scope nat_scope.

Definition zc (z : Z) : Qc := Q2Qc (inject_Z z).
Definition pos_vec (y : list Q) : vec := fun d => Q2Qc (nth d y 0%Q).
Definition pos_list (D : nat) (v : vec) : list Q := map (fun d => this (v d)) (seq 0 D).

(** _point_group.py 106-111: preimage, in components *)
Record fsym := FS { f_A : mat; f_b : vec }.
Definition fpre (D : nat) (s : fsym) : vec -> vec := fun v d => (mvec D (f_A s) v d + f_b s d)%Qc.
(** Identity() or a PGSymmetry *)
Inductive psym := PId | PSym (s : fsym).
Definition dimension (L : glattice) : nat := length (g_extent (gl_geom L)).
Definition positions (L : glattice) : list (list Q) := map (frac (gl_geom L)) (gl_sites L).
Definition n_nodes (L : glattice) : nat := length (gl_sites L).

(** lattice.id_from_position(p.preimage(lattice.positions)) *)
Definition ids_of (L : glattice) (f : vec -> vec) : res (list nat) :=
  sequence (map (fun y => id_from_position L (pos_list (dimension L) (f (pos_vec y)))) (positions L)).
(** 98-111: point_group; Permutation checks nothing *)
Definition sym_elem (L : glattice) (p : psym) : res elem :=
  match p with
  | PId => Ok EId
  | PSym s => let? q := ids_of L (fpre (dimension L) s) in Ok (EPerm q)
  end.
Definition sg_point_group (L : glattice) (l : list psym) : res pgroup :=
  let? es := sequence (map (sym_elem L) l) in Ok (PG es (n_nodes L)).

(** 127-147: _translations_along_axis *)
Definition minus_basis (axis : nat) : vec -> vec := fun v d => (v d - (if Nat.eqb d axis then 1 else 0))%Qc.
Definition sg_translations_along (L : glattice) (axis : nat) : res pgroup :=
  if nth axis (g_pbc (gl_geom L)) false then
    let? p := ids_of L (minus_basis axis) in
    let? l := power_list EId (EPerm p) (Z.to_nat (nth axis (g_extent (gl_geom L)) 0%Z) - 1) in
    Ok (PG (EId :: l) (n_nodes L))
  else Ok (PG [EId] (n_nodes L)).
(** 149-175: translation_group; [None] is all axes; reduce of no groups raises TypeError *)
Definition sg_translation_group (L : glattice) (axes : option (list nat)) : res pgroup :=
  let l := match axes with None => seq 0 (dimension L) | Some l => l end in
  let? gs := sequence (map (sg_translations_along L) l) in
  match gs with
  | [] => Err TypeError
  | g :: gs => reduce_prod g gs
  end.
(** 177-182: space_group *)
Definition sg_space_group (L : glattice) (l : list psym) : res pgroup :=
  let? T := sg_translation_group L None in
  let? P := sg_point_group L l in
  group_prod T P.

(** The components of the preimage under a PGSymmetry, for basis vectors in the rows of [U]. *)
Definition cartesian (D : nat) (U : mat) (v : vec) : vec := fun i => qs D (fun k => v k * U k i)%Qc.
Definition components (D : nat) (Ui : mat) (x : vec) : vec := fun i => qs D (fun k => x k * Ui k i)%Qc.
Definition basis_form (U Ui : mat) (p : pgs) : fsym :=
  FS (fun d k => qs (p_n p) (fun i => qs (p_n p) (fun j => U k j * p_W p j i)%Qc * Ui i d)%Qc)
     (fun d => qs (p_n p) (fun i => qs (p_n p) (fun j => - (p_w p j) * p_W p j i)%Qc * Ui i d)%Qc).
