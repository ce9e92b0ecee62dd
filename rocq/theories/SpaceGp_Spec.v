(** What C87 means, independently of the implementation. *)
From Coq Require Import List Arith Bool ZArith QArith Qcanon Permutation.
From Verif Require Import Base Rings Lattice_Model LatGen_Model LatGen_Spec PointGp_Model PointGp_Spec Group_Model Group_Spec SpaceGp_Model.
Import ListNotations.
Open Scope nat_scope.

(** the position of a site *)
Definition place (L : glattice) (i : nat) : vec := pos_vec (frac (gl_geom L) (nth i (gl_sites L) [])).
(** The same point of the box: components differ by multiples of the extent, along periodic axes only. *)
Definition same_point (L : glattice) (v v' : vec) : Prop :=
  exists n : nat -> Z,
    (forall d, d < dimension L -> nth d (g_pbc (gl_geom L)) false = false -> n d = 0%Z) /\
    (forall d, d < dimension L -> v d = (v' d + zc (n d * nth d (g_extent (gl_geom L)) 0%Z))%Qc).
(** no two sites in the same place, to the accuracy of look-ups *)
Definition separated (L : glattice) : Prop :=
  forall j k, j < n_nodes L -> k < n_nodes L -> j <> k ->
  ~ same_position (gl_geom L) (frac (gl_geom L) (nth j (gl_sites L) [])) (frac (gl_geom L) (nth k (gl_sites L) [])).
Definition proper_lattice (L : glattice) : Prop :=
  exists g, valid g /\ shaped g /\ gen_lattice g = Ok L /\ separated L.
(** a map of points of the box which sends sites to sites *)
Definition maps_sites (L : glattice) (f : vec -> vec) : Prop :=
  (forall v v', same_point L v v' -> same_point L (f v) (f v')) /\
  (forall i, i < n_nodes L -> exists k, k < n_nodes L /\ same_point L (f (place L i)) (place L k)).
(** two maps undo each other *)
Definition undo (L : glattice) (f h : vec -> vec) : Prop :=
  forall v, same_point L (h (f v)) v /\ same_point L (f (h v)) v.
(** a symmetry of the lattice in its box *)
Definition box_symmetry (L : glattice) (f : vec -> vec) : Prop :=
  maps_sites L f /\ exists h, maps_sites L h /\ undo L f h.
(** The permutation [p] belongs to the symmetry whose preimage is [f]: entry [i] is the site at the preimage of site [i]. *)
Definition belongs (L : glattice) (f : vec -> vec) (p : list nat) : Prop :=
  isperm (n_nodes L) p /\ forall i, i < n_nodes L -> same_point L (f (place L i)) (place L (nth i p 0)).
Definition map_of (L : glattice) (p : psym) : vec -> vec :=
  match p with PId => fun v => v | PSym s => fpre (dimension L) s end.

(** Displacements by whole cells: zero along open axes. *)
Definition displacement (L : glattice) (m : nat -> Z) : Prop :=
  forall d, d < dimension L -> nth d (g_pbc (gl_geom L)) false = false -> m d = 0%Z.
Definition back (m : nat -> Z) : vec -> vec := fun v d => (v d - zc (m d))%Qc.
(** every offset of every cell is a site *)
Definition full_lattice (L : glattice) : Prop := forall c, of_box (gl_geom L) c -> In c (gl_sites L).
(** The displacements along the axes, those of the last axis varying fastest. *)
Definition steps (L : glattice) (a : nat) : list Z :=
  map Z.of_nat (seq 0 (if nth a (g_pbc (gl_geom L)) false then Z.to_nat (nth a (g_extent (gl_geom L)) 0%Z) else 1)).
Definition tuples (L : glattice) (axes : list nat) : list (list Z) :=
  fold_left (fun ts a => flat_map (fun t => map (fun k => t ++ [k]) (steps L a)) ts) axes [[]].
Fixpoint shift_of (axes : list nat) (t : list Z) : nat -> Z :=
  match axes, t with
  | a :: axes, k :: t => fun d => ((if Nat.eqb d a then k else 0) + shift_of axes t d)%Z
  | _, _ => fun _ => 0%Z
  end.

(** A set of affine maps that is a group up to displacements by whole cells: products, inverses;
    the linear parts turn displacements into displacements. *)
Definition vplus (v : vec) (m : nat -> Z) : vec := fun d => (v d + zc (m d))%Qc.
Definition integral (L : glattice) (f : vec -> vec) : Prop :=
  forall m, displacement L m -> exists m', displacement L m' /\ forall v d, d < dimension L -> f (vplus v m) d = vplus (f v) m' d.
Definition group_mod_cells (L : glattice) (l : list psym) : Prop :=
  l <> [] /\ (forall p, In p l -> integral L (map_of L p)) /\
  (forall p q, In p l -> In q l -> exists r m, In r l /\ displacement L m /\
     forall v d, d < dimension L -> map_of L q (map_of L p v) d = vplus (map_of L r v) m d) /\
  (forall p, In p l -> exists q m, In q l /\ displacement L m /\
     (forall v d, d < dimension L -> map_of L q (map_of L p v) d = vplus v m d)).
(** A set of maps that is a group of maps of the box. *)
Definition group_in_box (L : glattice) (l : list psym) : Prop :=
  l <> [] /\
  (forall p q, In p l -> In q l -> exists r, In r l /\ forall v, same_point L (map_of L q (map_of L p v)) (map_of L r v)) /\
  (forall p, In p l -> exists q, In q l /\ undo L (map_of L p) (map_of L q)).

(** Squared lengths *)
Definition qform (L : glattice) (v : vec) : Qc :=
  qs (dimension L) (fun d => qs (dimension L) (fun e => v d * Q2Qc (nth e (nth d (g_gram (gl_geom L)) []) 0%Q) * v e)%Qc).
Definition vdiff (u v : vec) : vec := fun d => (u d - v d)%Qc.
Definition isometry (L : glattice) (f : vec -> vec) : Prop :=
  forall u v, qform L (vdiff (f u) (f v)) = qform L (vdiff u v).
Definition joined (L : glattice) (i j : nat) : Prop := In (i, j) (gl_edges L) \/ In (j, i) (gl_edges L).
(** Edges join the sites which have images at distance r. *)
Definition edges_at (L : glattice) (r2 : Qc) : Prop :=
  forall i j, i < n_nodes L -> j < n_nodes L -> i <> j ->
  (joined L i j <-> exists v, same_point L v (place L j) /\ qform L (vdiff (place L i) v) = r2).
