(** * Property C118: graphs made from lists of edges, their copies and their symmetries *)
From Coq Require Import List Bool Arith ZArith Lia Sorting.Permutation Sorting.Sorted.
From Verif Require Import Base GraphCls_Model GraphCls_Spec GraphCls_Proofs.
Import ListNotations.
Open Scope nat_scope.

(** a triangle with a tail; the edge of the tail has another colour *)
Definition tri : list edge := [(0, 1, 5%Z); (2, 1, 5%Z); (2, 0, 5%Z); (2, 3, 7%Z)].
Definition g_tri : graph := mkGraph 4 [(0, 1, 5%Z); (1, 2, 5%Z); (0, 2, 5%Z); (2, 3, 7%Z)].

(** ** The graph has the edges that were given *)
Theorem C118_coloured_edges :
  forall n l, (forall a b c, In (a, b, c) l -> a < n /\ b < n) ->
  mk_graph (Some (coloured_edges l)) (Some (Z.of_nat n))
  = Ok (mkGraph n (map (fun e => (undirected (fst e), snd e)) l)).
Proof. exact GraphCls_Proofs.new_coloured. Qed.
Print Assumptions C118_coloured_edges.
Theorem C118_plain_edges :
  forall n l, (forall a b, In (a, b) l -> a < n /\ b < n) ->
  mk_graph (Some (plain_edges l)) (Some (Z.of_nat n))
  = Ok (mkGraph n (map (fun e => (undirected e, 0%Z)) l)).
Proof. exact GraphCls_Proofs.new_plain. Qed.
Print Assumptions C118_plain_edges.
Example C118_edges_ex :
  (forall a b c, In (a, b, c) tri -> a < 4 /\ b < 4) /\
  mk_graph (Some (coloured_edges tri)) (Some 4%Z) = Ok g_tri /\
  mk_graph (Some (plain_edges [(3, 1)])) (Some 5%Z) = Ok (mkGraph 5 [(1, 3, 0%Z)]).
Proof.
  split; [|split; reflexivity].
  intros a b c H. cbn in H. repeat (destruct H as [H|H]; [injection H as <- <- <-; lia|]). contradiction.
Qed.
(** without [n_nodes] the largest label is the last node *)
Theorem C118_default_nodes :
  forall l, l <> [] ->
  exists n, mk_graph (Some (coloured_edges l)) None
            = Ok (mkGraph n (map (fun e => (undirected (fst e), snd e)) l)) /\
    (forall a b c, In (a, b, c) l -> a < n /\ b < n) /\
    exists a b c, In (a, b, c) l /\ n = S (Nat.max a b).
Proof. exact GraphCls_Proofs.new_default. Qed.
Print Assumptions C118_default_nodes.
Theorem C118_no_edges :
  mk_graph (Some []) None = Ok (mkGraph 0 []) /\
  forall n, edgeless (Z.of_nat n) = Ok (mkGraph n []).
Proof. exact (conj eq_refl (fun n => GraphCls_Proofs.new_plain n [] (fun a b H => match H with end))). Qed.
Print Assumptions C118_no_edges.
Example C118_default_ex :
  tri <> [] /\ mk_graph (Some (coloured_edges tri)) None = Ok g_tri /\ edgeless 3 = Ok (mkGraph 3 []).
Proof. split; [discriminate|]. split; reflexivity. Qed.

(** ** What is no list of edges is refused *)
Theorem C118_bad_edges :
  forall es n,
  (forall e, In e es -> exists l, e = PSeq l /\ length l = 2) \/
  (forall e, In e es -> exists l, e = PSeq l /\ length l = 3) \/
  raises (mk_graph (Some es) n).
Proof. exact GraphCls_Proofs.bad_edges. Qed.
Print Assumptions C118_bad_edges.
Theorem C118_bad_node :
  forall n l a b, In (a, b) l -> (a < 0 \/ b < 0 \/ n <= a \/ n <= b)%Z ->
  raises (mk_graph (Some (map (fun e => PSeq [fst e; snd e]) l)) (Some n)).
Proof. exact GraphCls_Proofs.bad_node. Qed.
Print Assumptions C118_bad_node.
Theorem C118_no_sequence : forall n, mk_graph None n = Err TypeError.
Proof. exact (fun n => eq_refl). Qed.
Print Assumptions C118_no_sequence.
Example C118_bad_ex :
  raises (mk_graph (Some [PSeq [0; 1]; PSeq [1; 2; 0]]%Z) None) /\
  raises (mk_graph (Some [PInt 0; PInt 1]%Z) None) /\
  raises (mk_graph (Some (map (fun e => PSeq [fst e; snd e]) [(0, 1); (1, 4)]%Z)) (Some 4%Z)).
Proof. repeat split; eexists; reflexivity. Qed.

(** every graph is well formed, and its coloured edges give it back *)
Theorem C118_well_formed : forall es n g, mk_graph es n = Ok g -> wf g.
Proof. exact GraphCls_Proofs.built_wf. Qed.
Print Assumptions C118_well_formed.
Theorem C118_round_trip :
  forall g, wf g -> mk_graph (Some (coloured_edges (g_edges g))) (Some (Z.of_nat (g_n g))) = Ok g.
Proof. exact GraphCls_Proofs.round_trip. Qed.
Print Assumptions C118_round_trip.
Lemma tri_wf : wf g_tri.
Proof. exact (built_wf (Some (coloured_edges tri)) None g_tri eq_refl). Qed.
Example C118_round_trip_ex :
  wf g_tri /\ mk_graph (Some (coloured_edges (g_edges g_tri))) (Some 4%Z) = Ok g_tri.
Proof. split; [exact tri_wf|reflexivity]. Qed.

(** ** Reading the edges *)
Theorem C118_edges :
  forall g,
  edges g CNone false None = Ok (Plain (map fst (g_edges g))) /\
  edges g CNone true None = Ok (Coloured (g_edges g)) /\
  edge_colors g = map snd (g_edges g).
Proof. exact (fun g => conj (edges_plain g) (conj (edges_coloured g) eq_refl)). Qed.
Print Assumptions C118_edges.
Theorem C118_filter :
  forall g c, exists l, edges g CNone true (Some c) = Ok (Coloured l) /\
  edges g CNone false (Some c) = Ok (Plain (map fst l)) /\
  l = filter (fun e => Z.eqb (snd e) c) (g_edges g) /\
  forall e, In e l <-> In e (g_edges g) /\ snd e = c.
Proof. exact GraphCls_Proofs.edges_filtered. Qed.
Print Assumptions C118_filter.
Theorem C118_old_color :
  forall g b c rc fc,
  edges g (CBool b) rc fc = edges g CNone b fc /\ edges g (CInt c) rc fc = edges g CNone rc (Some c) /\
  edges g COther rc fc = Err TypeError.
Proof. exact GraphCls_Proofs.edges_old. Qed.
Print Assumptions C118_old_color.
Example C118_reading_ex :
  edges g_tri CNone true (Some 7%Z) = Ok (Coloured [(2, 3, 7%Z)]) /\
  edges g_tri (CInt 5) false None = Ok (Plain [(0, 1); (1, 2); (0, 2)]).
Proof. split; reflexivity. Qed.

(** ** Two copies side by side *)
Theorem C118_doubled :
  forall g, wf g -> exists d, doubled g = Ok d /\ wf d /\ g_n d = 2 * g_n g /\
  (forall i j, i < g_n g ->
     ((exists c, joined d i j c) <-> exists c, joined g i j c)) /\
  (forall i j, (exists c, joined d (i + g_n g) j c) <-> exists j' c, j = j' + g_n g /\ joined g i j' c).
Proof. exact GraphCls_Proofs.doubled_ok. Qed.
Print Assumptions C118_doubled.
Theorem C118_doubled_separate :
  forall g d, wf g -> doubled g = Ok d -> forall i j, walk d i j -> i < g_n g -> j < g_n g.
Proof. exact GraphCls_Proofs.doubled_separate. Qed.
Print Assumptions C118_doubled_separate.
(** "identical to the input" would keep the colours *)
Theorem C118_doubled_refuted :
  exists g d, wf g /\ doubled g = Ok d /\
    exists i j c, joined g i j c /\ ~ joined d i j c.
Proof.
  exists g_tri. eexists. split; [exact tri_wf|]. split; [reflexivity|].
  exists 2, 3, 7%Z. split; [left; cbn; auto|].
  intros [H|H]; cbn in H; repeat (destruct H as [H|H]; [discriminate H|]); contradiction.
Qed.
Print Assumptions C118_doubled_refuted.
Theorem C118_union :
  forall g h, wf g -> wf h ->
  wf (disjoint_union g h) /\ g_n (disjoint_union g h) = g_n g + g_n h /\
  (forall i j c, i < g_n g -> (joined (disjoint_union g h) i j c <-> joined g i j c)) /\
  (forall i j c, joined (disjoint_union g h) (i + g_n g) j c <-> exists j', j = j' + g_n g /\ joined h i j' c).
Proof. exact GraphCls_Proofs.union_ok. Qed.
Print Assumptions C118_union.
Example C118_copies_ex :
  wf g_tri /\
  doubled (mkGraph 2 [(0, 1, 0%Z)]) = Ok (mkGraph 4 [(0, 1, 0%Z); (2, 3, 0%Z)]) /\
  disjoint_union (mkGraph 2 [(0, 1, 4%Z)]) (mkGraph 3 [(1, 2, 6%Z)])
  = mkGraph 5 [(0, 1, 4%Z); (3, 4, 6%Z)].
Proof. split; [exact tri_wf|]. split; reflexivity. Qed.

(** ** Symmetries *)
Theorem C118_automorphisms :
  forall vf2 g, finds_all vf2 g ->
  let l := fst (automorphisms vf2 None g) in
  (forall p, In p l <-> automorphism g p) /\ NoDup l /\ hd [] l = seq 0 (g_n g) /\
  fst (automorphisms vf2 (snd (automorphisms vf2 None g)) g) = l.
Proof. exact GraphCls_Proofs.automorphisms_ok. Qed.
Print Assumptions C118_automorphisms.
Theorem C118_group :
  forall vf2 g, finds_all vf2 g ->
  let l := fst (automorphisms vf2 None g) in
  forall p q, In p l -> In q l -> In (compose p q) l.
Proof. exact GraphCls_Proofs.group_closed. Qed.
Print Assumptions C118_group.
(** the graph of two nodes and one edge *)
Definition g_edge : graph := mkGraph 2 [(0, 1, 0%Z)].
Example C118_automorphisms_ex :
  finds_all (fun _ => [[1; 0]; [0; 1]; [1; 0]]) g_edge /\
  fst (automorphisms (fun _ => [[1; 0]; [0; 1]; [1; 0]]) None g_edge) = [[0; 1]; [1; 0]].
Proof.
  split; [|reflexivity]. intros p. split.
  - intros H. assert (p = [1; 0] \/ p = [0; 1]) as [->| ->] by (cbn in H; intuition).
    + split; [apply perm_swap|]. intros i j c Hi Hj. cbn in Hi, Hj.
      destruct i as [|[|i]]; [| |lia]; (destruct j as [|[|j]]; [| |lia]); unfold joined; cbn;
        intuition congruence.
    + exact (identity_auto g_edge).
  - intros [H _]. cbn in H. apply Permutation_sym, Permutation_length_2_inv in H.
    destruct H as [->| ->]; cbn; auto.
Qed.

(** ** Distances *)
Theorem C118_distances :
  forall shortest g i j, i < g_n g -> j < g_n g ->
  nth j (nth i (distances shortest g) []) Inf
  = match shortest i j with Some d => Fin (Z.of_nat d) | None => Inf end.
Proof. exact GraphCls_Proofs.distances_ok. Qed.
Print Assumptions C118_distances.
(** "the distance between unconnected nodes is set to -1" *)
Theorem C118_distances_refuted :
  exists shortest g i j, i < g_n g /\ j < g_n g /\ shortest i j = None /\ ~ walk g i j /\
    nth j (nth i (distances shortest g) []) Inf <> Fin (-1).
Proof.
  exists (fun i j => if Nat.eqb i j then Some 0 else None), (mkGraph 2 []), 0, 1.
  split; [cbn; lia|]. split; [cbn; lia|]. split; [reflexivity|]. split; [|discriminate].
  intros W. inversion W as [|? ? ? ? J _]. destruct J as [J|J]; contradiction.
Qed.
Print Assumptions C118_distances_refuted.
Example C118_distances_ex :
  distances (fun i j => Some (if Nat.eqb i j then 0 else 1)) g_edge
  = [[Fin 0; Fin 1]; [Fin 1; Fin 0]].
Proof. reflexivity. Qed.
