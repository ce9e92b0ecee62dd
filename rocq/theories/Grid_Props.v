(** C90: grids (graph.Grid, Hypercube, Cube, Square, Chain) and their symmetries. *)
From Coq Require Import List Arith Bool ZArith QArith Qcanon.
From Verif Require Import Base LatGen_Model PointGp_Model PointGp_Spec SpaceGp_Model SpaceGp_Spec Grid_Model Grid_Spec
  Grid_Proofs Grid_Group Grid_Final Grid_Ex Group_Model Group_Spec.
Import ListNotations.
Open Scope nat_scope.

(** One site for every cell of the box; two sites are joined if and only if they are next to each
    other in the box. *)
Theorem C90_lattice : forall extent pbc, boxed extent pbc -> (exists d, d < length extent /\ ((2 <= nth d extent 0)%Z \/ nth d pbc false = true)) ->
  exists L cell, grid_lattice extent pbc = Ok L /\
  (forall k d, k < n_nodes L -> d < length extent -> place L k d = zc (cell k d) /\ (0 <= cell k d < nth d extent 0)%Z) /\
  (forall z, (forall d, d < length extent -> (0 <= z d < nth d extent 0)%Z) -> exists k, k < n_nodes L /\ forall d, d < length extent -> cell k d = z d) /\
  (forall j k, j < n_nodes L -> k < n_nodes L -> (forall d, d < length extent -> cell j d = cell k d) -> j = k) /\
  (forall i j, i < n_nodes L -> j < n_nodes L -> i <> j -> (joined L i j <-> box_neighbours extent pbc (cell i) (cell j))).
Proof. exact lattice_main. Qed.
Print Assumptions C90_lattice.
Example C90_lattice_ex : boxed [2; 3]%Z [false; true] /\ grid_edges_of [2; 3]%Z [false; true] = Ok [(0, 2); (0, 1); (0, 3); (1, 2); (1, 4); (2, 5); (3, 5); (3, 4); (4, 5)].
Proof. exact (conj ladder_boxed ladder_edges). Qed.

(** A box of a single site with open boundaries is refused, although the documentation allows
    sides of length one. *)
Theorem C90_single_site : forall extent pbc, boxed extent pbc -> (forall d, d < length extent -> nth d extent 0%Z = 1%Z /\ nth d pbc false = false) -> 0 < length extent ->
  grid_lattice extent pbc = Err ValueError.
Proof. exact refused_main. Qed.
Print Assumptions C90_single_site.
Example C90_single_site_ex : boxed [1; 1]%Z [false; false] /\ grid_lattice [1; 1]%Z [false; false] = Err ValueError.
Proof. split; [split; [reflexivity|repeat constructor; discriminate]|vm_compute; reflexivity]. Qed.

(** The point group: the permutations of axes with the same length and boundary conditions,
    combined with all reversals of axes, about the middle of open axes and the first site of
    periodic ones; each of them once, the identity first. *)
Theorem C90_elements : forall extent pbc, boxed extent pbc -> exists G, grid_point_group extent pbc = Ok G /\ g_ndim G = length extent /\ g_cell G = None /\ hd_error (g_elems G) = Some PointGp_Model.EId /\
  (forall i, i < length (g_elems G) -> good (length extent) (el G i) /\
     exists s f, axis_perm (length extent) s /\ keeps_box extent pbc s /\ forall c, centre extent pbc c -> acts_as (length extent) (el G i) (box_map c s f)) /\
  (forall s f c, axis_perm (length extent) s -> keeps_box extent pbc s -> centre extent pbc c ->
     exists i, i < length (g_elems G) /\ acts_as (length extent) (el G i) (box_map c s f)) /\
  (forall i j, i < length (g_elems G) -> j < length (g_elems G) -> same_map (length extent) (el G i) (el G j) -> i = j).
Proof. exact elements_main. Qed.
Print Assumptions C90_elements.
Example C90_elements_ex : boxed [2; 3]%Z [false; true] /\
  order_of [2; 3]%Z [false; true] = Ok 4 /\ order_of [3; 3]%Z [true; true] = Ok 8 /\ order_of [3; 3]%Z [true; false] = Ok 4 /\ order_of [2; 2; 2]%Z [false; false; false] = Ok 48.
Proof. exact (conj ladder_boxed orders). Qed.

(** It is a group of maps, and its tables of inverses and products are correct. *)
Theorem C90_group : forall extent pbc, boxed extent pbc -> exists G, grid_point_group extent pbc = Ok G /\
  (forall i j, i < length (g_elems G) -> j < length (g_elems G) -> exists k, k < length (g_elems G) /\
     forall x, veq (length extent) (e_act (el G k) x) (e_act (el G i) (e_act (el G j) x))) /\
  (forall i, i < length (g_elems G) -> exists k, k < length (g_elems G) /\
     forall x, veq (length extent) (e_act (el G k) (e_act (el G i) x)) x) /\
  forall minv, (forall W, orthogonal (length extent) W -> PointGp_Spec.inverse_of (length extent) W (minv (length extent) W)) ->
    exists t P, pg_inverse minv G = Ok t /\ pg_product_table minv G = Ok P /\
      (forall i, i < length (g_elems G) -> nth i t 0 < length (g_elems G) /\ forall x, veq (length extent) (e_act (el G i) (e_act (el G (nth i t 0)) x)) x) /\
      (forall i j, i < length (g_elems G) -> j < length (g_elems G) -> nth j (nth i P []) 0 < length (g_elems G) /\
         forall x, veq (length extent) (e_act (el G i) (e_act (el G (nth j (nth i P []) 0)) x)) (e_act (el G j) x)).
Proof. exact group_main. Qed.
Print Assumptions C90_group.
Example C90_group_ex : boxed [2; 3]%Z [false; true] /\ (forall W, orthogonal 2 W -> PointGp_Spec.inverse_of 2 W ((fun _ A => tr A) 2 W)) /\
  tables_of [2; 2]%Z [true; true] = Ok ([0; 1; 2; 3; 4; 6; 5; 7], [4; 5; 6; 7; 0; 1; 2; 3]).
Proof. exact (conj ladder_boxed (conj transpose_inverse square_tables)). Qed.

(** Its space group: exactly the symmetries of the box combined with translations along periodic
    axes; a group; every element maps edges to edges.  Each element is listed once if sides are
    longer than one, and periodic sides longer than two. *)
Theorem C90_space_group : forall extent pbc, boxed extent pbc -> (exists d, d < length extent /\ ((2 <= nth d extent 0)%Z \/ nth d pbc false = true)) ->
  (forall d, d < length extent -> (nth d extent 0 < 3326400)%Z) ->
  exists L G H, grid_lattice extent pbc = Ok L /\ grid_point_group extent pbc = Ok G /\ sg_space_group L (map as_psym (g_elems G)) = Ok H /\
  degree H = n_nodes L /\ is_group (n_nodes L) (perms H) /\
  (forall q, In q (perms H) -> forall i j, i < n_nodes L -> j < n_nodes L -> i <> j -> (joined L i j <-> joined L (nth i q 0) (nth j q 0))) /\
  (forall c, centre extent pbc c -> forall q, In q (perms H) <->
     exists s f m, axis_perm (length extent) s /\ keeps_box extent pbc s /\ displacement L m /\ belongs L (fun v => box_map c s f (back m v)) q) /\
  ((forall d, d < length extent -> (2 <= nth d extent 0)%Z /\ (nth d pbc false = true -> (3 <= nth d extent 0)%Z)) -> NoDup (perms H)).
Proof. exact space_final. Qed.
Print Assumptions C90_space_group.
Example C90_space_group_ex : boxed [2; 3]%Z [false; true] /\ centre [2; 3]%Z [false; true] (origin_of [2; 3]%Z [false; true]) /\ space_perms [2; 3]%Z [false; true] =
  Ok [[0; 1; 2; 3; 4; 5]; [0; 2; 1; 3; 5; 4]; [3; 4; 5; 0; 1; 2]; [3; 5; 4; 0; 2; 1]; [2; 0; 1; 5; 3; 4]; [1; 0; 2; 4; 3; 5]; [5; 3; 4; 2; 0; 1]; [4; 3; 5; 1; 0; 2];
      [1; 2; 0; 4; 5; 3]; [2; 1; 0; 5; 4; 3]; [4; 5; 3; 1; 2; 0]; [5; 4; 3; 2; 1; 0]].
Proof. exact (conj ladder_boxed (conj (origin_centre _ _) ladder_space)). Qed.

(** Refuted: every element is listed once on every grid. *)
Theorem C90_distinct_refuted : exists extent pbc L G H, boxed extent pbc /\ (forall d, d < length extent -> (2 <= nth d extent 0)%Z) /\
  grid_lattice extent pbc = Ok L /\ grid_point_group extent pbc = Ok G /\ sg_space_group L (map as_psym (g_elems G)) = Ok H /\ ~ NoDup (perms H).
Proof. exact distinct_refuted. Qed.
Print Assumptions C90_distinct_refuted.
