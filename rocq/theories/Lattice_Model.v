(** Model of hypercubic lattices: netket/graph/lattice.py 67-144, 281-331 as used by
    Grid / Hypercube / Chain (netket/graph/common_lattices.py 63-190), and of the
    translation group of netket/graph/space_group.py 127-175.
    Basis vectors are the unit vectors and there is one site per cell, so positions are
    the integer cell coordinates. *)
From Coq Require Import List Arith Bool ZArith.
From Verif Require Import Base Group_Model.
Import ListNotations.
Open Scope Z_scope.

Definition coord := list Z.

(** slice(lo, hi) of np.mgrid: lo, lo+1, ..., hi-1. *)
Definition range (lo hi : Z) : list Z := map (fun k => lo + k) (zrange (hi - lo)).

(** np.mgrid[ranges] raveled and stacked: all combinations, last axis fastest. *)
Fixpoint mgrid (rs : list (list Z)) : list coord :=
  match rs with
  | [] => [[]]
  | r :: rs' => flat_map (fun x => map (cons x) (mgrid rs')) r
  end.

(** lattice.py 70-81: one extra shell of cells on both sides along periodic axes. *)
Definition shell (extent : list Z) (pbc : list bool) : list (list Z) :=
  map (fun ep : Z * bool => if snd ep then range (-1) (fst ep + 1) else range 0 (fst ep))
      (combine extent pbc).
Definition all_sites (extent : list Z) (pbc : list bool) : list coord :=
  mgrid (shell extent pbc).

(** lattice.py 99-102: is_inside. *)
Definition inside (extent : list Z) (c : coord) : bool :=
  forallb (fun ec : Z * Z => (0 <=? snd ec) && (snd ec <=? fst ec - 1)) (combine extent c).

(** Squared distance of two positions. *)
Definition dist2 (a b : coord) : Z :=
  zsum (map (fun ab : Z * Z => (fst ab - snd ab) * (fst ab - snd ab)) (combine a b)).

(** lattice.py 106-113 get_edges: pairs (row < col) at nonzero distance within the cutoff
    (norm of a basis vector = 1, plus the tolerance), of which those at the smallest
    distance are kept; sorted.  Distances are exact, so a distance d satisfies
    d <= 1 + atol iff d*d <= 1 (0 <= atol < sqrt 2 - 1). *)
Definition pairs (m : nat) : list (nat * nat) :=
  flat_map (fun i => map (pair i) (seq (S i) (m - S i))) (seq 0 m).
Definition site (sites : list coord) (i : nat) : coord := nth i sites [].
Definition get_edges (sites : list coord) : list (nat * nat) :=
  let d (ij : nat * nat) := dist2 (site sites (fst ij)) (site sites (snd ij)) in
  let close := filter (fun ij => (0 <? d ij) && (d ij <=? 1)) (pairs (length sites)) in
  let dmin := fold_right Z.min 1 (map d close) in
  filter (fun ij => d ij =? dmin) close.

(** cell % extent, elementwise (Python remainder: result in [0, extent)). *)
Definition wrap (extent : list Z) (c : coord) : coord :=
  map (fun ce : Z * Z => fst ce mod snd ce) (combine c extent).

(** basis_coord_to_site[HashableArray(c)]; the keys are copies of the coordinates made
    when the sites were created (lattice.py 93-98). *)
Fixpoint coord_pos (c : coord) (l : list coord) : option nat :=
  match l with
  | [] => None
  | x :: l' => if zlist_eqb x c then Some O
               else match coord_pos c l' with Some k => Some (S k) | None => None end
  end.

Definition edge_in (e : nat * nat) (s : list (nat * nat)) : bool :=
  existsb (fun f => Nat.eqb (fst e) (fst f) && Nat.eqb (snd e) (snd f)) s.
Definition add_edge (e : nat * nat) (s : list (nat * nat)) : list (nat * nat) :=
  if edge_in e s then s else s ++ [e].

(** lattice.py 130-143: one naive edge.  [orig] are the coordinates at creation (keys of
    the dictionary, and [inside] was computed from them); [cur] are the coordinate arrays
    of the sites, which lines 137-138 overwrite in place. *)
Definition edge_step (extent : list Z) (orig : list coord)
  (st : list coord * list (nat * nat)) (e : nat * nat)
  : res (list coord * list (nat * nat)) :=
  let (cur, edges) := st in
  let (n1, n2) := e in
  let in1 := inside extent (site orig n1) in
  let in2 := inside extent (site orig n2) in
  if in1 && in2 then Ok (cur, add_edge e edges)
  else if in1 || in2 then
    let c1 := wrap extent (site cur n1) in
    let cur1 := upd cur n1 c1 in
    let c2 := wrap extent (site cur1 n2) in
    let cur2 := upd cur1 n2 c2 in
    match coord_pos c1 orig, coord_pos c2 orig with
    | Some k1, Some k2 =>
        if negb (edge_in (k1, k2) edges) && negb (edge_in (k2, k1) edges)
        then Ok (cur2, add_edge (k1, k2) edges) else Ok (cur2, edges)
    | _, _ => Err KeyError
    end
  else Ok (cur, edges).

Fixpoint edge_loop (extent : list Z) (orig : list coord)
  (st : list coord * list (nat * nat)) (es : list (nat * nat))
  : res (list coord * list (nat * nat)) :=
  match es with
  | [] => Ok st
  | e :: es' => let? st' := edge_step extent orig st e in edge_loop extent orig st' es'
  end.

(** sorted(set(node for edge in edges for node in edge)), lattice.py 305. *)
Definition used_nodes (m : nat) (edges : list (nat * nat)) : list nat :=
  filter (fun k => existsb (fun e => Nat.eqb k (fst e) || Nat.eqb k (snd e)) edges) (seq 0 m).

(** igraph simplify (lattice.py 311): self loops and repeated edges are removed; an edge
    is reported with its smaller end first.  The order of the edge list is not specified
    by the properties. *)
Definition ordered (e : nat * nat) : nat * nat :=
  if Nat.leb (fst e) (snd e) then e else (snd e, fst e).
Definition simplify (edges : list (nat * nat)) : list (nat * nat) :=
  fold_left (fun acc e => if Nat.eqb (fst e) (snd e) then acc else add_edge (ordered e) acc)
    edges [].

(** A lattice: extents, periodicity, coordinates of the sites, edges. *)
Record lattice := Lat { l_extent : list Z; l_pbc : list bool;
                        l_sites : list coord; l_edges : list (nat * nat) }.

(** lattice.py 281-331 (constructor) for Grid(extent, pbc) (common_lattices.py 63-122).
    Without any edge there are no nodes left and the matrix product with the inverse
    lattice dimensions (lines 324, 458) rejects the empty position array. *)
Definition grid (extent : list Z) (pbc : list bool) : res lattice :=
  let sites := all_sites extent pbc in
  let? st := edge_loop extent sites (sites, []) (get_edges sites) in
  let old := used_nodes (length sites) (snd st) in
  let new := fun k => find_pos k old in
  if Nat.eqb (length old) 0 then Err ValueError
  else Ok (Lat extent pbc (map (site (fst st)) old)
        (simplify (map (fun e => (new (fst e), new (snd e))) (snd st)))).

(** common_lattices.py 125-190: Chain(length, pbc) = Grid of one dimension. *)
Definition chain (length : Z) (pbc : bool) : res lattice := grid [length] [pbc].

(** lattice.py 457-486 id_from_position.  Coordinates along periodic axes are taken modulo
    the extent; the rounding to a fine integer mesh (utils/float.py) is not modelled, the
    positions being exact.  An unknown position is InvalidSiteError. *)
Definition wrap_pbc (L : lattice) (c : coord) : coord :=
  map (fun cep : Z * (Z * bool) => if snd (snd cep) then fst cep mod fst (snd cep) else fst cep)
      (combine c (combine (l_extent L) (l_pbc L))).
Definition id_from_position (L : lattice) (c : coord) : res nat :=
  match coord_pos (wrap_pbc L c) (l_sites L) with Some k => Ok k | None => Err Exception_ end.

(** Subtract the unit vector of an axis. *)
Definition minus_axis (axis : nat) (c : coord) : coord := upd c axis (nth axis c 0 - 1).

(** space_group.py 127-147 _translations_along_axis. *)
Fixpoint power_list (last t : elem) (k : nat) : res (list elem) :=
  match k with
  | O => Ok []
  | S k' => let? x := prod last t in let? l := power_list x t k' in Ok (x :: l)
  end.
Definition translations_along (L : lattice) (axis : nat) : res pgroup :=
  let n := length (l_sites L) in
  if nth axis (l_pbc L) false then
    let? p := sequence (map (fun c => id_from_position L (minus_axis axis c)) (l_sites L)) in
    let? l := power_list EId (EPerm p) (Z.to_nat (nth axis (l_extent L) 0) - 1) in
    Ok (PG (EId :: l) n)
  else Ok (PG [EId] n).

(** space_group.py 149-175: reduce(@) over the axes.  [axes] lists the requested axes;
    None is all of them in order. *)
Fixpoint reduce_prod (acc : pgroup) (gs : list pgroup) : res pgroup :=
  match gs with
  | [] => Ok acc
  | g :: gs' => let? a := group_prod acc g in reduce_prod a gs'
  end.
Definition translation_group (L : lattice) (axes : list nat) : res pgroup :=
  let? gs := sequence (map (translations_along L) axes) in
  match gs with
  | [] => Err TypeError
  | g :: gs' => reduce_prod g gs'
  end.
