(** * Lattices with any basis and unit cell (netket/graph/lattice.py)

    Positions are given by their components with respect to the basis vectors, as rational
    numbers; the basis vectors enter through their scalar products [gram] (which are rational
    for the lattices of common_lattices.py although the vectors are not).  Distances are
    exact: bins of distances (get_edges) and distance_atol play no role. *)
From Coq Require Import List Arith Bool ZArith QArith.
From Verif Require Import Base Group_Model Lattice_Model FloatCmp_Model.
Import ListNotations.
Open Scope Z_scope.

Definition qltb (a b : Q) : bool := negb (Qle_bool b a).
Definition qmin (a b : Q) : Q := if Qle_bool a b then a else b.
Definition qmax (a b : Q) : Q := if Qle_bool a b then b else a.
Definition qsum (l : list Q) : Q := fold_right Qplus 0%Q l.

(** ** 345-388: _clean_site_offsets, in units of the basis vectors.
    np.unique(axis=0, return_index=True) on rows of integers. *)
Fixpoint zlex_ltb (a b : list Z) : bool :=
  match a, b with
  | _, [] => false
  | [], _ :: _ => true
  | x :: a', y :: b' => if x <? y then true else if y <? x then false else zlex_ltb a' b'
  end.
Fixpoint zuinsert (x : list Z) (l : list (list Z)) : list (list Z) :=
  match l with
  | [] => [x]
  | y :: l' => if zlist_eqb x y then l else if zlex_ltb x y then x :: l else y :: zuinsert x l'
  end.
Definition zunique (rows : list (list Z)) : list (list Z) := fold_right zuinsert [] rows.
Fixpoint zrow_pos (x : list Z) (rows : list (list Z)) : nat :=
  match rows with [] => 0%nat | y :: l => if zlist_eqb x y then 0%nat else S (zrow_pos x l) end.

Definition offset_bins (o : list Q) : list Z := map (comparable_periodic true) o.
Record cleaned_offsets := Cleaned { o_offsets : list (list Q); o_warn_duplicates : bool; o_warn_outside : bool }.
Definition clean_site_offsets (ndim : nat) (site_offsets : option (list (list Q))) : cleaned_offsets :=
  let offs := match site_offsets with None => [repeat 0%Q ndim] | Some o => o end in
  let ints := map offset_bins offs in
  let uniques := zunique ints in
  let idx := map (fun u => zrow_pos u ints) uniques in
  let dup := negb (Nat.eqb (length offs) (length uniques)) in
  let offs' := if dup then map (fun i => nth i offs []) idx else offs in
  let ints' := if dup then map (fun i => nth i ints []) idx else ints in
  Cleaned offs' dup
    (existsb (existsb (fun k => k <? comparable 0)) ints' || existsb (existsb (fun k => comparable 1 <? k)) ints').

(** ** 67-144, 281-331: sites and edges.  A site is its cell followed by its label: the label is
    one more, open, axis of the grid (line 81). *)
Definition cell_of (c : coord) : coord := removelast c.
Definition label_of (c : coord) : nat := Z.to_nat (last c 0).
Record geometry := Geometry { g_gram : list (list Q); g_extent : list Z; g_pbc : list bool; g_offsets : list (list Q) }.
Definition ext (g : geometry) : list Z := g_extent g ++ [Z.of_nat (length (g_offsets g))].
Definition per (g : geometry) : list bool := g_pbc g ++ [false].
(** 83-87: site_coords *)
Definition frac (g : geometry) (c : coord) : list Q :=
  map (fun xo => (inject_Z (fst xo) + snd xo)%Q) (combine (cell_of c) (nth (label_of c) (g_offsets g) [])).
(** squared length of a vector given by its components *)
Definition quad (G : list (list Q)) (v : list Q) : Q :=
  qsum (map (fun rx => (snd rx * qsum (map (fun gy => (fst gy * snd gy)%Q) (combine (fst rx) v)))%Q) (combine G v)).
Definition vsub (a b : list Q) : list Q := map (fun xy => (fst xy - snd xy)%Q) (combine a b).
Definition sqdist (g : geometry) (a b : coord) : Q := quad (g_gram g) (vsub (frac g a) (frac g b)).
(** 127-129: the longest basis vector *)
Definition cutoff (g : geometry) : Q := fold_right qmax 0%Q (map (fun i => nth i (nth i (g_gram g) []) 0%Q) (seq 0 (length (g_gram g)))).
(** 106-113: get_edges *)
Definition naive_edges (g : geometry) (sites : list coord) : list (nat * nat) :=
  let d (ij : nat * nat) := sqdist g (site sites (fst ij)) (site sites (snd ij)) in
  let close := filter (fun ij => qltb 0 (d ij) && Qle_bool (d ij) (cutoff g)) (pairs (length sites)) in
  let dmin := fold_right qmin (cutoff g) (map d close) in
  filter (fun ij => Qeq_bool (d ij) dmin) close.
Record glattice := GLat { gl_geom : geometry; gl_sites : list coord; gl_edges : list (nat * nat) }.
Definition gen_lattice (g : geometry) : res glattice :=
  let sites := all_sites (ext g) (per g) in
  let? st := edge_loop (ext g) sites (sites, []) (naive_edges g sites) in
  let old := used_nodes (length sites) (snd st) in
  let new := fun k => find_pos k old in
  if Nat.eqb (length old) 0 then Err ValueError
  else Ok (GLat g (map (site (fst st)) old)
        (simplify (map (fun e => (new (fst e), new (snd e))) (snd st)))).

(** ** 457-506: looking up sites *)
Definition int_position (g : geometry) (y : list Q) : list Z :=
  map (fun t => comparable_periodic (snd (snd t)) (fst t / inject_Z (fst (snd t)))) (combine y (combine (g_extent g) (g_pbc g))).
(** a dictionary built from a list: the last entry with the key *)
Fixpoint last_pos (key : list Z) (l : list (list Z)) : option nat :=
  match l with
  | [] => None
  | x :: l => match last_pos key l with
              | Some k => Some (S k)
              | None => if zlist_eqb x key then Some 0%nat else None
              end
  end.
(** InvalidSiteError is [Exception_] *)
Definition id_from_position (L : glattice) (y : list Q) : res nat :=
  match last_pos (int_position (gl_geom L) y) (map (fun c => int_position (gl_geom L) (frac (gl_geom L) c)) (gl_sites L)) with
  | Some k => Ok k
  | None => Err Exception_
  end.
Definition id_from_basis_coords (L : glattice) (c : coord) : res nat :=
  match last_pos c (gl_sites L) with Some k => Ok k | None => Err Exception_ end.
Definition position_from_basis_coords (L : glattice) (c : coord) : res (list Q) :=
  let? k := id_from_basis_coords L c in Ok (frac (gl_geom L) (nth k (gl_sites L) [])).

(** ** 508-553: to_reciprocal_lattice; [kappa] lists k . (extent_d a_d) / 2 pi.
    InvalidWaveVectorError is [Exception_]. *)
Definition to_reciprocal_lattice (pbc : list bool) (kappa : list Q) : res (list Z) :=
  if negb (forallb (is_approx_int (1 # 100000000)) kappa) then Err Exception_
  else let r := map rint kappa in
       if forallb (fun pk => fst pk || (snd pk =? 0)) (combine pbc r) then Ok r else Err Exception_.
