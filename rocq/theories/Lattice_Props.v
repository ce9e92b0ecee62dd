(** C31: hypercubic lattices and their translations. *)
From Coq Require Import List Arith Bool ZArith Sorted.
From Verif Require Import Base Group_Model Group_Spec Lattice_Model Lattice_Spec
  Lattice_Proofs Lattice_Trans.
Import ListNotations.
Open Scope Z_scope.

(** C31, edges of the periodic chain of n sites: {i, i+1 mod n}, once each (and no self
    loop for n = 1). *)
Theorem C31_chain :
  forall n, (1 <= n)%nat ->
  exists L, chain (Z.of_nat n) true = Ok L /\ length (l_sites L) = n /\ NoDup (l_edges L) /\
  forall i j, In (i, j) (l_edges L) <->
    (i < j < n)%nat /\ (j = (i + 1) mod n \/ i = (j + 1) mod n)%nat.
Proof. exact chain_thm. Qed.
Print Assumptions C31_chain.

(** The same for grids of every dimension, extent and mix of periodic and open axes (with
    at least one axis that is periodic or longer than one): the sites are the cells of the
    box in lexicographic order, the edges join exactly the neighbouring cells, once each. *)
Theorem C31_grid :
  forall extent pbc, length extent = length pbc -> Forall (fun e => 1 <= e) extent ->
  Exists (fun ep => snd ep = true \/ 1 < fst ep) (combine extent pbc) ->
  exists L, grid extent pbc = Ok L /\ l_extent L = extent /\ l_pbc L = pbc /\
  StronglySorted lex (l_sites L) /\
  (forall c, In c (l_sites L) <-> in_box extent c) /\
  NoDup (l_edges L) /\
  (forall i j, In (i, j) (l_edges L) <-> (i < j < length (l_sites L))%nat /\
     neighbours extent pbc (nth i (l_sites L) []) (nth j (l_sites L) [])).
Proof. exact grid_ok. Qed.
Print Assumptions C31_grid.

(** C31, translations: every element of the translation group permutes the sites, is a
    translation by some vector, and maps edges to edges (and non-edges to non-edges);
    there are as many elements as combinations of steps along the periodic axes. *)
Theorem C31_translations :
  forall extent pbc, length extent = length pbc -> Forall (fun e => 1 <= e) extent ->
  Exists (fun ep => snd ep = true \/ 1 < fst ep) (combine extent pbc) ->
  forall L axes, grid extent pbc = Ok L ->
  axes <> [] -> Forall (fun a => (a < length extent)%nat) axes ->
  exists G, translation_group L axes = Ok G /\ degree G = length (l_sites L) /\
    length (elems G) = fold_left Nat.mul (map (n_translations extent pbc) axes) 1%nat /\
    Forall (wf (degree G)) (elems G) /\
    forall e, In e (elems G) -> exists s,
      is_translation L s (perm_of (degree G) e) /\
      forall i j, (i < degree G)%nat -> (j < degree G)%nat ->
        (has_edge L i j <->
         has_edge L (nth i (perm_of (degree G) e) 0%nat) (nth j (perm_of (degree G) e) 0%nat)).
Proof. exact translations_thm. Qed.
Print Assumptions C31_translations.

(** An open chain of one site cannot be built, although extents >= 1 are documented as
    valid (common_lattices.py 72-73). *)
Theorem C31_single_open_site_refuted :
  exists extent pbc, length extent = length pbc /\ Forall (fun e => 1 <= e) extent /\
    grid extent pbc = Err ValueError.
Proof.
  exists [1], [false]. repeat split. constructor; [vm_compute; discriminate|constructor].
Qed.
Print Assumptions C31_single_open_site_refuted.

Example C31_ex :
  exists L, chain 5 true = Ok L /\
    l_edges L = [(0,4);(0,1);(1,2);(2,3);(3,4)]%nat /\
  exists G, translation_group L [0%nat] = Ok G /\
    elems G = [EId; EPerm [4;0;1;2;3]; EPerm [3;4;0;1;2]; EPerm [2;3;4;0;1];
               EPerm [1;2;3;4;0]]%nat.
Proof. eexists. split; [reflexivity|]. split; [reflexivity|]. eexists. split; reflexivity. Qed.

Example C31_grid_ex :
  Exists (fun ep => snd ep = true \/ 1 < fst ep) (combine [2;3] [true;false]) /\
  exists L, grid [2;3] [true;false] = Ok L /\ length (l_edges L) = 7%nat.
Proof.
  split; [left; left; reflexivity|]. eexists. split; reflexivity.
Qed.
