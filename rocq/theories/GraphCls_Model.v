(** * Model of netket/graph/graph.py: the class Graph

    The library igraph is modelled as the list of edges with their colours; it keeps the
    order of the edges, writes the smaller node first, and refuses nodes that do not exist.
    Its search for isomorphisms and shortest paths are arguments. *)
From Coq Require Import List Bool Arith ZArith Lia.
From Verif Require Import Base.
Import ListNotations.
Open Scope nat_scope.

(** an entry of [edges]: a sequence of integers or something without a length *)
Inductive pyedge := PInt (z : Z) | PSeq (l : list Z).

(** [all(len(e) == len(e0) for e in edges)] (line 75): stops at the first other length *)
Fixpoint all_len (k : nat) (es : list pyedge) : res unit :=
  match es with
  | [] => Ok tt
  | PInt _ :: _ => Err TypeError
  | PSeq l :: es' => if Nat.eqb (length l) k then all_len k es' else Err ValueError
  end.

Definition items (e : pyedge) : list Z := match e with PSeq l => l | PInt _ => [] end.
Definition ends (e : pyedge) : Z * Z := (nth 0 (items e) 0%Z, nth 1 (items e) 0%Z).
Definition colour (e : pyedge) : Z := nth 2 (items e) 0%Z.

(** _clean_edges (lines 63-81); [None] is an argument that is no Sequence (an array, a set) *)
Definition clean (edges : option (list pyedge)) : res (list (Z * Z) * list Z) :=
  match edges with
  | None => Err TypeError
  | Some [] => Ok ([], [])
  | Some (e0 :: r) =>
      match e0 with
      | PInt _ => Err ValueError
      | PSeq l0 =>
          if negb (Nat.eqb (length l0) 2 || Nat.eqb (length l0) 3) then Err ValueError
          else
            let? _ := all_len (length l0) (e0 :: r) in
            if Nat.eqb (length l0) 2
            then Ok (map ends (e0 :: r), repeat 0%Z (length (e0 :: r)))
            else Ok (map ends (e0 :: r), map colour (e0 :: r))
      end
  end.

Definition edge : Type := (nat * nat * Z)%type.
Record graph := mkGraph { g_n : nat; g_edges : list edge }.

(** igraph: add_vertices, add_edges (lines 57-59); nodes that do not exist are an error *)
Definition igraph_edge (n : nat) (e : (Z * Z) * Z) : res edge :=
  let '(a, b, c) := e in
  if (a <? 0)%Z || (b <? 0)%Z || (Z.of_nat n <=? a)%Z || (Z.of_nat n <=? b)%Z then Err ValueError
  else Ok (Z.to_nat (Z.min a b), Z.to_nat (Z.max a b), c).
Definition igraph_new (n : Z) (es : list (Z * Z)) (cs : list Z) : res graph :=
  if (n <? 0)%Z then Err ValueError
  else
    let? l := sequence (map (igraph_edge (Z.to_nat n)) (combine es cs)) in
    Ok (mkGraph (Z.to_nat n) l).

(** lines 52-56 *)
Definition default_n (es : list (Z * Z)) : Z :=
  match es with
  | [] => 0
  | (a, b) :: r => fold_left (fun m e => Z.max m (Z.max (fst e) (snd e))) r (Z.max a b) + 1
  end%Z.

(** Graph(edges, n_nodes) (lines 35-62) *)
Definition mk_graph (edges : option (list pyedge)) (n_nodes : option Z) : res graph :=
  let? c := clean edges in
  let n := match n_nodes with Some n => n | None => default_n (fst c) end in
  igraph_new n (fst c) (snd c).

(** edges (lines 146-173).  [color] is the old argument: [CBool], [CInt] or something else *)
Inductive color_arg := CNone | CBool (b : bool) | CInt (z : Z) | COther.
Inductive edges_res := Plain (l : list (nat * nat)) | Coloured (l : list edge).

Definition edges (g : graph) (color : color_arg) (return_color : bool) (filter_color : option Z)
  : res edges_res :=
  let? a := match color with
            | CNone => Ok (return_color, filter_color)
            | CBool b => Ok (b, filter_color)
            | CInt z => Ok (return_color, Some z)
            | COther => Err TypeError
            end in
  let (rc, fc) := a in
  if negb rc && match fc with None => true | _ => false end
  then Ok (Plain (map fst (g_edges g)))
  else
    let l := match fc with
             | None => g_edges g
             | Some c => filter (fun e => Z.eqb (snd e) c) (g_edges g)
             end in
    if rc then Ok (Coloured l) else Ok (Plain (map fst l)).

(** edge_colors (lines 175-182) *)
Definition edge_colors (g : graph) : list Z := map snd (g_edges g).

(** distances (lines 186-187): the array of what igraph returns; an unreachable node is at
    infinity there *)
Inductive number := Fin (z : Z) | Inf.
Definition distances (shortest : nat -> nat -> option nat) (g : graph) : list (list number) :=
  map (fun i => map (fun j => match shortest i j with Some d => Fin (Z.of_nat d) | None => Inf end)
                    (seq 0 (g_n g))) (seq 0 (g_n g)).

(** np.unique(result, axis=0) (line 199): rows in lexicographic order, once each *)
Fixpoint lex (a b : list nat) : comparison :=
  match a, b with
  | [], [] => Eq
  | [], _ => Lt
  | _, [] => Gt
  | x :: a', y :: b' => match Nat.compare x y with Eq => lex a' b' | c => c end
  end.
Fixpoint insert_row (r : list nat) (l : list (list nat)) : list (list nat) :=
  match l with
  | [] => [r]
  | s :: l' => match lex r s with
               | Lt => r :: l
               | Eq => l
               | Gt => s :: insert_row r l'
               end
  end.
Definition unique_rows (l : list (list nat)) : list (list nat) := fold_right insert_row [] l.

(** _compute_automorphisms and automorphisms (lines 189-209): [vf2] is the list of
    isomorphisms that igraph finds for the graph with its edge colours.  The result is kept:
    the second component is [_automorphisms] afterwards. *)
Definition automorphisms (vf2 : graph -> list (list nat)) (cache : option (list (list nat)))
  (g : graph) : list (list nat) * option (list (list nat)) :=
  match cache with
  | Some l => (l, cache)
  | None => let l := unique_rows (vf2 g) in (l, Some l)
  end.

(** Edgeless (lines 221-238) *)
Definition edgeless (n : Z) : res graph := mk_graph (Some []) (Some n).

(** DoubledGraph (lines 241-261) *)
Definition doubled (g : graph) : res graph :=
  let es := map fst (g_edges g) in
  let n := g_n g in
  let dedges := es ++ map (fun e => (fst e + n, snd e + n)) es in
  mk_graph (Some (map (fun e => PSeq [Z.of_nat (fst e); Z.of_nat (snd e)]) dedges))
           (Some (Z.of_nat (2 * n))).

(** disjoint_union (lines 264-268) with igraph's, which keeps the edge attributes *)
Definition disjoint_union (g h : graph) : graph :=
  mkGraph (g_n g + g_n h)
    (g_edges g ++ map (fun e => let '(a, b, c) := e in (a + g_n g, b + g_n g, c)) (g_edges h)).
