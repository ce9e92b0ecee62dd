(** * Graphs, graph operators and the Heisenberg Hamiltonian
    (netket/graph/graph.py, netket/operator/_graph_operator.py, _hamiltonian.py 357-438) *)
From Coq Require Import List ZArith Bool Arith.
From Verif Require Import Base Scalar LocalOp_Model.
Import ListNotations.
Open Scope nat_scope.

(** ** Graph.  An edge given by the user is a sequence of integers; edges that are not
    sequences (TypeError, ValueError) are not modelled. *)
(** graph.py 63-82 *)
Definition clean_edges (edges : list (list Z)) : res (list (Z * Z) * list Z) :=
  match edges with
  | [] => Ok ([], [])
  | e0 :: _ =>
      if negb ((length e0 =? 2) || (length e0 =? 3)) then Err ValueError
      else if negb (forallb (fun e : list Z => length e =? length e0) edges) then Err ValueError
      else if length e0 =? 2
      then Ok (map (fun e => (nth 0 e 0%Z, nth 1 e 0%Z)) edges, repeat 0%Z (length edges))
      else Ok (map (fun e => (nth 0 e 0%Z, nth 1 e 0%Z)) edges, map (fun e => nth 2 e 0%Z) edges)
  end.

Record graph := mkGraph { n_nodes : nat; g_edges : list (nat * nat); g_colors : list Z }.

(** graph.py 35-61.  igraph (trusted): add_edges rejects nodes that do not exist (its
    exceptions are [Exception_] here), keeps the order of the edges and repeated edges,
    and get_edgelist returns the smaller node of an undirected edge first. *)
Definition mk_graph (edges : list (list Z)) (nodes : option nat) : res graph :=
  let? ec := clean_edges edges in
  let edges := fst ec in
  let n := match nodes with
           | Some n => n
           | None => match edges with
                     | [] => 0
                     | e :: es =>
                         Z.to_nat (fold_left (fun m e => Z.max m (Z.max (fst e) (snd e))) es
                                             (Z.max (fst e) (snd e)) + 1)
                     end
           end in
  if forallb (fun e => ((0 <=? fst e) && (0 <=? snd e) && (fst e <? Z.of_nat n)
                        && (snd e <? Z.of_nat n))%Z) edges
  then Ok (mkGraph n (map (fun e => (Z.to_nat (Z.min (fst e) (snd e)),
                                     Z.to_nat (Z.max (fst e) (snd e)))) edges) (snd ec))
  else Err Exception_.

(** graph.py 152-180: edges(return_color=True, filter_color=...) *)
Definition edges_with_color (g : graph) (filter_color : option Z) : list (nat * nat * Z) :=
  let ec := combine (g_edges g) (g_colors g) in
  match filter_color with
  | Some c => filter (fun e => (snd e =? c)%Z) ec
  | None => ec
  end.
(** edges(filter_color=...) without colours *)
Definition edges (g : graph) (filter_color : option Z) : list (nat * nat) :=
  match filter_color with
  | None => g_edges g
  | Some _ => map fst (edges_with_color g filter_color)
  end.

(** graph.py 242-260 *)
Definition doubled_graph (g : graph) : res graph :=
  let dedges := g_edges g ++ map (fun e => (fst e + n_nodes g, snd e + n_nodes g)) (g_edges g) in
  mk_graph (map (fun e => [Z.of_nat (fst e); Z.of_nat (snd e)]) dedges) (Some (2 * n_nodes g)).

Section GraphOperator.
Variable S : scalars.
Variable depth : nat.
Variable hs : list (list Z).

(** a matrix and whether its dtype is complex *)
Notation typed := (bool * mat S)%type.

(** _local_operator.py 239-269 with the test of lines 510-511: without [dtype], the first
    matrix decides, because the promotion of lines 249-250 is discarded. *)
Definition typed_lop (dtype : option bool) (terms : list (typed * list nat)) : res (lop S) :=
  if negb (forallb is_sorted hs) then Err ValueError
  else
    let dt := match dtype with
              | Some d => d
              | None => match terms with [] => false | t :: _ => fst (fst t) end
              end in
    fold_left (fun acc t =>
                 let? a := acc in
                 if fst (fst t) && negb dt then Err ValueError
                 else add_operator S depth hs a (snd (fst t)) (snd t))
      (filter (fun t => match snd t with [] => false | _ => true end) terms)
      (Ok (mkLop S [] [] [] [] (k0 S) (kbige S (k0 S)) true)).

(** _graph_operator.py 90-118 *)
Definition site_terms (g : graph) (site_ops : list typed) : list (typed * list nat) :=
  if 0 <? length site_ops
  then flat_map (fun i => map (fun op => (op, [i])) site_ops) (seq 0 (n_nodes g))
  else [].
Definition bond_terms (g : graph) (bond_ops : list typed) (colors : list Z)
  : res (list (typed * list nat)) :=
  if 0 <? length colors
  then
    if negb (length bond_ops =? length colors) then Err ValueError
    else if 0 <? length bond_ops
    then Ok (flat_map (fun e =>
               flat_map (fun oc => if (snd oc =? snd e)%Z
                                   then [(fst oc, [fst (fst e); snd (fst e)])] else [])
                        (combine bond_ops colors)) (edges_with_color g None))
    else Ok []
  else
    match bond_ops with
    | [op] => Ok (map (fun e => (op, [fst e; snd e])) (edges g None))
    | _ => Err AssertionError
    end.

(** _graph_operator.py 78-122 *)
Definition graph_operator (g : graph) (site_ops bond_ops : list typed) (colors : list Z)
  (dtype : option bool) : res (lop S) :=
  if negb (n_nodes g =? length hs) then Err ValueError
  else if (length bond_ops =? 0) && (length site_ops =? 0) then Err ValueError
  else
    let? bonds := bond_terms g bond_ops colors in
    typed_lop dtype (site_terms g site_ops ++ bonds).

(** _hamiltonian.py 393-426; [bip] is the answer of graph.is_bipartite() (igraph), [J] is
    real (a complex [J] would make the matrix complex). *)
Notation one := (k1 S).
Notation zero := (k0 S).
Notation two := (kadd S (k1 S) (k1 S)).
Definition sz_sz : mat S :=
  [[one; zero; zero; zero]; [zero; kopp S one; zero; zero];
   [zero; zero; kopp S one; zero]; [zero; zero; zero; one]].
Definition exchange : mat S :=
  [[zero; zero; zero; zero]; [zero; zero; two; zero];
   [zero; two; zero; zero]; [zero; zero; zero; zero]].
Definition mzip (f : K S -> K S -> K S) (a b : mat S) : mat S :=
  map (fun r => map (fun p => f (fst p) (snd p)) (combine (fst r) (snd r))) (combine a b).
Definition heis_term (sign_rule : bool) : mat S :=
  if sign_rule then mzip (ksub S) sz_sz exchange else mzip (kadd S) sz_sz exchange.

Definition heisenberg (g : graph) (bip : bool) (J : K S) (sign_rule : option bool)
  : res (lop S) :=
  let sr := match sign_rule with Some b => b | None => bip end in
  if sr && negb bip then Err ValueError
  else graph_operator g [] [(false, map (map (fun k => kmul S J k)) (heis_term sr))] [] None.
End GraphOperator.
