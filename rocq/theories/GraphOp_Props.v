(** * C73, C74, C75: graph operators, the Heisenberg Hamiltonian, graphs *)
From Coq Require Import List ZArith Bool Arith Lia Permutation Sorting.Sorted Reals.
From Verif Require Import Base ExTac Scalar LocalOp_Spec LocalOp_Model SpinOps_Model SpinOps_Spec
  GraphOp_Model GraphOp_Spec GraphOp_Proofs Heis_Proofs.
Import ListNotations.
Open Scope nat_scope.

Definition z0 : GZ := (0, 0)%Z.
Definition z1 : GZ := (1, 0)%Z.
Definition mZ : list (list GZ) := [[z1; z0]; [z0; (-1, 0)%Z]].
Definition mY : list (list GZ) := [[z0; (0, -1)%Z]; [(0, 1)%Z; z0]].
Definition mP : list (list GZ) :=
  [[z0; z0; z0; z0]; [z0; z0; z1; z0]; [z0; z0; z0; z0]; [z0; z0; z0; z0]].
Definition jk (_ : nat) : GZ := (77, 0)%Z.
Definition jx (_ : nat) : list Z := [].
Definition path3 : list (list Z) := [[1; 0; 5]; [1; 2; 6]]%Z.
Definition hs3 : list (list Z) := repeat [-1; 1]%Z 3.

(** ** C75: a graph keeps its edges, in order, with their colours *)
Theorem C75_edges : forall es nodes g, mk_graph es nodes = Ok g ->
  length (edges_with_color g None) = length es /\ edges g None = map fst (edges_with_color g None) /\
  forall i, i < length es ->
  let e := nth i es [] in
  let '(u, v, c) := nth i (edges_with_color g None) (0, 0, 0%Z) in
  u <= v /\ v < n_nodes g /\ c = edge_color e /\
  (edge_nodes e = (Z.of_nat u, Z.of_nat v) \/ edge_nodes e = (Z.of_nat v, Z.of_nat u)).
Proof. exact graph_edges. Qed.
Print Assumptions C75_edges.

(** the number of nodes is the given one, or one more than the largest node of an edge *)
Theorem C75_nodes : forall es nodes g, mk_graph es nodes = Ok g ->
  match nodes with
  | Some n => n_nodes g = n
  | None => match es with
            | [] => n_nodes g = 0
            | _ => exists e, In e es /\
                (fst (edge_nodes e) = Z.of_nat (n_nodes g) - 1 \/ snd (edge_nodes e) = Z.of_nat (n_nodes g) - 1)%Z
            end
  end.
Proof. exact graph_nodes. Qed.
Print Assumptions C75_nodes.

(** the edge lists that are accepted *)
Theorem C75_accepts : forall es nodes,
  (exists g, mk_graph es nodes = Ok g) <->
  lens es /\ Forall (fun e => (0 <= fst (edge_nodes e))%Z /\ (0 <= snd (edge_nodes e))%Z /\
     match nodes with
     | Some n => (fst (edge_nodes e) < Z.of_nat n)%Z /\ (snd (edge_nodes e) < Z.of_nat n)%Z
     | None => True
     end) es.
Proof. exact graph_accepts. Qed.
Print Assumptions C75_accepts.

Theorem C75_filter : forall g c u v,
  In (u, v) (edges g (Some c)) <-> In (u, v, c) (edges_with_color g None).
Proof. exact graph_filter. Qed.
Print Assumptions C75_filter.

(** the doubled graph is two separate copies of the graph *)
Theorem C75_doubled : forall es nodes g, mk_graph es nodes = Ok g ->
  exists d, doubled_graph g = Ok d /\ n_nodes d = 2 * n_nodes g /\
    edges d None = edges g None ++ map (fun e => (fst e + n_nodes g, snd e + n_nodes g)) (edges g None).
Proof. exact doubled. Qed.
Print Assumptions C75_doubled.

(** but the colours of its edges are lost *)
Theorem C75_doubled_colors_refuted :
  exists es g d, mk_graph es None = Ok g /\ doubled_graph g = Ok d /\
    edges g (Some 5%Z) = [(0, 1)] /\ edges d (Some 5%Z) = [].
Proof. exists path3. eexists. eexists. repeat split. Qed.
Print Assumptions C75_doubled_colors_refuted.

Example C75_ex : exists g, mk_graph path3 None = Ok g /\ n_nodes g = 3 /\
  edges_with_color g None = [(0, 1, 5%Z); (1, 2, 6%Z)] /\ edges g (Some 6%Z) = [(1, 2)] /\
  mk_graph [[0; 1]; [1; 2; 3]]%Z None = Err ValueError /\ mk_graph [[0; 3]]%Z (Some 2) = Err Exception_ /\
  mk_graph [[0]]%Z None = Err ValueError.
Proof. eexists. repeat split. Qed.

(** ** C73: GraphOperator.  Every row is the sum of the site operators on all sites and of
    the bond operators on the edges of their colour; the first factor of a bond operator
    acts on the smaller node. *)
Theorem C73_row : forall S (L : scalar_laws S) (NS : no_small S) depth hs (Hs : sorted_space hs)
  es nodes g (site_ops bond_ops : list (bool * mat S)) colors dtype x junk junkx,
  mk_graph es nodes = Ok g -> no_loops es -> n_nodes g = length hs ->
  colors_ok S bond_ops colors -> kinds_ok S dtype (site_ops ++ bond_ops) ->
  sizes_ok S hs (edges_with_color g None) (map snd site_ops) (bond_spec S bond_ops colors) ->
  configuration hs x ->
  exists o, graph_operator S (Datatypes.S depth) hs g site_ops bond_ops colors dtype = Ok o /\
    row_or_fault S hs
      (graph_element S hs (map snd site_ops) (bond_spec S bond_ops colors) (edges_with_color g None) x)
      (get_conn S hs o junk junkx x).
Proof. exact graph_row_main. Qed.
Print Assumptions C73_row.

Theorem C73_errors : forall S depth hs g (site_ops bond_ops : list (bool * mat S)) colors dtype,
  (n_nodes g <> length hs -> graph_operator S depth hs g site_ops bond_ops colors dtype = Err ValueError) /\
  (bond_ops = [] -> site_ops = [] -> graph_operator S depth hs g site_ops bond_ops colors dtype = Err ValueError) /\
  (n_nodes g = length hs -> site_ops <> [] \/ bond_ops <> [] -> colors <> [] -> length colors <> length bond_ops ->
     graph_operator S depth hs g site_ops bond_ops colors dtype = Err ValueError) /\
  (n_nodes g = length hs -> site_ops <> [] \/ bond_ops <> [] -> colors = [] -> length bond_ops <> 1 ->
     graph_operator S depth hs g site_ops bond_ops colors dtype = Err AssertionError).
Proof. exact graph_errors. Qed.
Print Assumptions C73_errors.

(** an edge from a node to itself is rejected *)
Theorem C73_self_loop : forall S depth hs g (site_ops bond_ops : list (bool * mat S)) dtype u op,
  n_nodes g = length hs -> bond_ops = [op] -> In (u, u) (edges g None) ->
  exists e, graph_operator S depth hs g site_ops bond_ops [] dtype = Err e.
Proof. exact self_loop. Qed.
Print Assumptions C73_self_loop.

(** The documentation allows site operators alone, and says that without colours all bond
    operators act on all edges: both are refused. *)
Theorem C73_site_only_refuted :
  exists g (site_ops : list (bool * mat gzxS)), mk_graph path3 None = Ok g /\ n_nodes g = length hs3 /\
    site_ops <> [] /\ graph_operator gzxS 1 hs3 g site_ops [] [] None = Err AssertionError.
Proof. eexists. exists [(false, mZ)]. repeat split; discriminate. Qed.
Print Assumptions C73_site_only_refuted.
Theorem C73_all_bonds_refuted :
  exists g (bond_ops : list (bool * mat gzxS)), mk_graph path3 None = Ok g /\ n_nodes g = length hs3 /\
    length bond_ops = 2 /\ graph_operator gzxS 1 hs3 g [] bond_ops [] None = Err AssertionError.
Proof. eexists. exists [(false, mP); (false, mP)]. repeat split; discriminate. Qed.
Print Assumptions C73_all_bonds_refuted.

(** A complex matrix after a real one is refused unless dtype is given; in the other order
    it is accepted. *)
Theorem C73_promotion_refuted :
  exists g, mk_graph path3 None = Ok g /\
    graph_operator gzxS 1 hs3 g [(false, mZ); (true, mY)] [(false, mP)] [] None = Err ValueError /\
    (forall e, graph_operator gzxS 1 hs3 g [(true, mY); (false, mZ)] [(false, mP)] [] None <> Err e) /\
    (forall e, graph_operator gzxS 1 hs3 g [(false, mZ); (true, mY)] [(false, mP)] [] (Some true) <> Err e).
Proof. eexists. split; [reflexivity|]. split; [vm_compute; reflexivity|]. split; intros e; vm_compute; discriminate. Qed.
Print Assumptions C73_promotion_refuted.

(** the edge was given as (1, 0): the matrix |ab><ba| acts with its first factor on 0 *)
Example C73_ex : exists g o, mk_graph path3 None = Ok g /\
  graph_operator gzxS 1 hs3 g [(false, mZ)] [(false, mP)] [5%Z] None = Ok o /\
  (get_conn gzxS hs3 o jk jx [-1; 1; 1]%Z
   = Ok [([-1; 1; 1]%Z, (-1, 0)%Z); ([1; -1; 1]%Z, z1)] /\
   map (graph_element gzxS hs3 [mZ] [(mP, Some 5%Z)] (edges_with_color g None) [-1; 1; 1]%Z) (all_configs hs3)
   = [z0; z0; z0; (-1, 0)%Z; z0; z1; z0; z0]).
Proof. compute_ex. Qed.
Example C73_ex_hyps : exists g, mk_graph path3 None = Ok g /\ no_loops path3 /\ sorted_space hs3 /\
  n_nodes g = length hs3 /\ colors_ok gzxS [(false, mP)] [5%Z] /\
  kinds_ok gzxS None ([(false, mZ)] ++ [(false, mP)]) /\
  sizes_ok gzxS hs3 (edges_with_color g None) [mZ] (bond_spec gzxS [(false, mP)] [5%Z]) /\
  configuration hs3 [-1; 1; 1]%Z.
Proof.
  eexists. split; [reflexivity|]. split; [repeat constructor; discriminate|]. split; [repeat constructor|].
  split; [reflexivity|]. split; [right; split; [discriminate|reflexivity]|]. split; [right; left; repeat constructor|].
  split; [|repeat (constructor; [cbn; auto|]); constructor]. split.
  - intros m i [<-|[]] Hi. destruct i as [|[|[|i]]]; cbn in Hi; try lia; split; try reflexivity; repeat constructor.
  - intros m oc e [E|[]] [<-|[<-|[]]] H; injection E as <- <-; cbn in H; try discriminate; split; try reflexivity; repeat constructor.
Qed.

(** ** C74: Heisenberg on sites with two states: sz sz is diagonal, sx sx + sy sy exchanges
    different neighbours with weight 2, with the opposite sign if the sign rule is used. *)
Theorem C74_row : forall S (L : scalar_laws S) (NS : no_small S) depth a b (Hab : (a < b)%Z)
  es nodes g bip J sign_rule x junk junkx,
  mk_graph es nodes = Ok g -> no_loops es ->
  (sign_rule = Some true -> bip = true) -> configuration (repeat [a; b] (n_nodes g)) x ->
  exists o, heisenberg S (Datatypes.S depth) (repeat [a; b] (n_nodes g)) g bip J sign_rule = Ok o /\
    row_or_fault S (repeat [a; b] (n_nodes g))
      (heis_element S (if match sign_rule with Some s => s | None => bip end then kopp S else fun k => k)
         J (edges g None) x)
      (get_conn S (repeat [a; b] (n_nodes g)) o junk junkx x).
Proof. exact heis_row_main. Qed.
Print Assumptions C74_row.

(** connected configurations have as many sites of each kind *)
Theorem C74_conserves : forall S (L : scalar_laws S) (NS : no_small S) depth a b (Hab : (a < b)%Z)
  es nodes g bip J sign_rule x junk junkx o l y,
  mk_graph es nodes = Ok g -> no_loops es -> configuration (repeat [a; b] (n_nodes g)) x ->
  heisenberg S (Datatypes.S depth) (repeat [a; b] (n_nodes g)) g bip J sign_rule = Ok o ->
  get_conn S (repeat [a; b] (n_nodes g)) o junk junkx x = Ok l ->
  configuration (repeat [a; b] (n_nodes g)) y -> weight S l y <> k0 S -> Permutation x y.
Proof. exact heis_conserves. Qed.
Print Assumptions C74_conserves.

Theorem C74_symmetric : forall S (L : scalar_laws S) es nodes g flip J x y,
  mk_graph es nodes = Ok g -> no_loops es -> length x = n_nodes g -> length y = n_nodes g ->
  heis_element S flip J (edges g None) x y = heis_element S flip J (edges g None) y x.
Proof. exact heis_hermitian. Qed.
Print Assumptions C74_symmetric.

(** the sign rule is a change of basis by signs on one sublattice of a bipartite graph *)
Theorem C74_sign_rule : forall S (L : scalar_laws S) es nodes g J a b c x y, a <> b ->
  mk_graph es nodes = Ok g -> no_loops es -> length x = n_nodes g ->
  Forall (fun v => v = a \/ v = b) x -> bipartition c (edges g None) ->
  heis_element S (kopp S) J (edges g None) x y =
  kmul S (kmul S (marshall S a c x) (heis_element S (fun k => k) J (edges g None) x y)) (marshall S a c y).
Proof. exact heis_sign_rule. Qed.
Print Assumptions C74_sign_rule.

Theorem C74_not_bipartite : forall S depth hs g J,
  heisenberg S depth hs g false J (Some true) = Err ValueError.
Proof. exact heis_not_bipartite. Qed.
Print Assumptions C74_not_bipartite.

Theorem C74_wrong_local_size :
  forall S (L : scalar_laws S) (NS : no_small S) depth ls (Hs : StronglySorted Z.lt ls)
  es nodes g bip J sign_rule,
  mk_graph es nodes = Ok g -> no_loops es -> es <> [] -> J <> k0 S -> length ls <> 2 ->
  (sign_rule = Some true -> bip = true) ->
  heisenberg S depth (repeat ls (n_nodes g)) g bip J sign_rule = Err RuntimeError.
Proof. exact heis_wrong. Qed.
Print Assumptions C74_wrong_local_size.

(** without the sign rule the bond matrix is sx sx + sy sy + sz sz *)
Theorem C74_pauli : forall i j k l, i < 2 -> j < 2 -> k < 2 -> l < 2 ->
  entry (cscal 0) (heis_term (cscal 0) false) (2 * i + j) (2 * k + l) =
  cadd (cadd (cmul (of_rows (sigmax_mat 2) i k) (of_rows (sigmax_mat 2) j l))
             (cmul (of_rows (sigmay_mat 2) i k) (of_rows (sigmay_mat 2) j l)))
       (cmul (of_rows (sigmaz_mat 2) i k) (of_rows (sigmaz_mat 2) j l)).
Proof. exact pauli_bond. Qed.
Print Assumptions C74_pauli.

Example C74_ex : exists g o, mk_graph path3 None = Ok g /\
  heisenberg gzxS 1 hs3 g true (3, 0)%Z None = Ok o /\
  (get_conn gzxS hs3 o jk jx [-1; 1; 1]%Z
   = Ok [([-1; 1; 1]%Z, (0, 0)%Z); ([1; -1; 1]%Z, (-6, 0)%Z)] /\
   heis_element gzxS (kopp gzxS) (3, 0)%Z (edges g None) [-1; 1; 1]%Z [1; -1; 1]%Z = (-6, 0)%Z /\
   no_loops path3 /\ bipartition (fun i => i =? 1) (edges g None)).
Proof.
  compute_ex; try reflexivity.
  - repeat constructor; discriminate.
  - intros e [<-|[<-|[]]]; discriminate.
Qed.
