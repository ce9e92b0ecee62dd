(** C27-C29: permutation groups. *)
From Coq Require Import List Arith Bool Permutation Sorted Lia.
From Verif Require Import Base Group_Model Group_Spec Group_Proofs Group_Final.
Import ListNotations.
Open Scope nat_scope.

(** C27, products: whenever p@q is defined, applying it is applying q and then p, for
    arrays of any type; for elements of every kind, nested composites included. *)
Theorem C27_product_acts :
  forall a b c, prod a b = Ok c ->
  forall A (x y : list A), apply b x = Ok y -> apply c x = apply a y.
Proof. exact prod_apply. Qed.
Print Assumptions C27_product_acts.

(** The product of two elements that are not composites is always defined. *)
Theorem C27_product_defined :
  forall n a b, wf n a -> wf n b -> is_comp a = false -> is_comp b = false ->
  exists c, prod a b = Ok c /\ wf n c.
Proof. exact prod_simple. Qed.
Print Assumptions C27_product_defined.

(** C27, action: an element applied to an array moves the entries as its permutation. *)
Theorem C27_action :
  forall A (d : A) n e (x : list A), wf n e -> length x = n ->
  apply e x = Ok (permuted d (perm_of n e) x).
Proof. exact (@apply_ok). Qed.
Print Assumptions C27_action.

(** C27, inverse table: either every index points to an inverse, or the set does not
    contain all inverses and a RuntimeError is raised. *)
Theorem C27_inverse :
  forall g, Forall (wf (degree g)) (elems g) ->
  match inverse g with
  | Ok inv => length inv = length (elems g) /\
      forall i, i < length (elems g) -> nth i inv 0 < length (elems g) /\
        inverses (degree g) (nth i (perms g) []) (nth (nth i inv 0) (perms g) [])
  | Err e => e = RuntimeError /\ ~ has_inverses (degree g) (perms g)
  end.
Proof. exact inverse_thm. Qed.
Print Assumptions C27_inverse.

(** C27, product table: entry (i, j) is the index of g_i^-1 g_j; if the set is not a group
    the answer is an error (RuntimeError for a nonempty set), never a table. *)
Theorem C27_product_table :
  forall g, Forall (wf (degree g)) (elems g) ->
  match product_table g with
  | Ok pt => is_group (degree g) (perms g) /\ length pt = length (elems g) /\
      forall i j p', i < length (elems g) -> j < length (elems g) ->
        inverses (degree g) (nth i (perms g) []) p' ->
        nth j (nth i pt []) 0 < length (elems g) /\
        nth (nth j (nth i pt []) 0) (perms g) [] = times p' (nth j (perms g) [])
  | Err e => ~ is_group (degree g) (perms g) /\ (elems g <> [] -> e = RuntimeError)
  end.
Proof. exact product_table_thm. Qed.
Print Assumptions C27_product_table.

(** C27: a composite element multiplied with the identity has no unique product rule and
    raises. *)
Theorem C27_composite_identity_refuted :
  exists a, wf 2 a /\ (forall A (x : list A), length x = 2 -> exists y, apply a x = Ok y)
    /\ prod a EId = Err Exception_ /\ prod EId a = Err Exception_.
Proof.
  exists (EComp (EOther [1;0]) (EPerm [1;0])). split; [|split; [|split; reflexivity]].
  - cbn. split; apply perm_swap.
  - intros A [|x [|y [|]]]; try discriminate. intros _; eexists; reflexivity.
Qed.
Print Assumptions C27_composite_identity_refuted.

(** Concrete cases: a three-element rotation group with its tables; a non-group. *)
Definition rot3 := PG [EId; EPerm [1;2;0]; EPerm [2;0;1]] 3.
Example C27_ex :
  Forall (wf 3) (elems rot3) /\
  inverse rot3 = Ok [0;2;1] /\
  product_table rot3 = Ok [[0;1;2];[2;0;1];[1;2;0]] /\
  product_table (PG [EId; EPerm [1;2;0]] 3) = Err RuntimeError /\
  product_table (PG [EId; EPerm [1;0;2]; EPerm [0;2;1]] 3) = Err RuntimeError.
Proof.
  repeat split; try reflexivity.
  repeat constructor; cbn; unfold isperm; cbn [seq].
  - apply perm_trans with [1;0;2]; [apply perm_skip, perm_swap|apply perm_swap].
  - apply perm_trans with [0;2;1]; [apply perm_swap|apply perm_skip, perm_swap].
Qed.

(** C28, the group returned: the elements without an equal one before them, in order. *)
Theorem C28_first_appearances :
  forall g, Forall (wf (degree g)) (elems g) ->
  exists g' inv, remove_duplicates g = Ok (g', inv) /\ degree g' = degree g /\
    first_appearances (perm_of (degree g)) EId (elems g) (elems g').
Proof. exact remove_duplicates_ok. Qed.
Print Assumptions C28_first_appearances.

(** C28, the index array, partial: it is right provided the distinct permutations first
    appear in increasing lexicographic order.  Without that it is wrong (below). *)
Theorem C28_inverse_partial :
  forall g g' inv, Forall (wf (degree g)) (elems g) ->
  (forall i j, i < j -> is_first (perms g) i -> is_first (perms g) j ->
     lex_ltb (nth i (perms g) []) (nth j (perms g) []) = true) ->
  remove_duplicates g = Ok (g', inv) ->
  length inv = length (elems g) /\
  forall i, i < length (elems g) -> nth i inv 0 < length (elems g') /\
    perm_of (degree g) (nth (nth i inv 0) (elems g') EId)
    = perm_of (degree g) (nth i (elems g) EId).
Proof. exact remove_duplicates_inverse. Qed.
Print Assumptions C28_inverse_partial.

Theorem C28_inverse_refuted :
  exists g g' inv i, Forall (wf (degree g)) (elems g) /\
    remove_duplicates g = Ok (g', inv) /\ i < length (elems g) /\
    perm_of (degree g) (nth (nth i inv 0) (elems g') EId)
    <> perm_of (degree g) (nth i (elems g) EId).
Proof.
  exists (PG [EPerm [1;0]; EId] 2). eexists; eexists. exists 0.
  split; [repeat constructor; cbn; apply perm_swap|].
  split; [reflexivity|]. split; [cbn; lia|]. vm_compute. discriminate.
Qed.
Print Assumptions C28_inverse_refuted.

Example C28_ex :
  remove_duplicates (PG [EId; EPerm [1;0]; EPerm [0;1]; EPerm [1;0]] 2)
  = Ok (PG [EId; EPerm [1;0]] 2, [0;1;0;1]).
Proof. reflexivity. Qed.

(** C29: for a group without repeated elements.  Row cls[i] is exactly the class of
    element i; every row is the class of its representative, which is its
    lowest-indexed member; every element lies in exactly one row. *)
Theorem C29_classes :
  forall g, Forall (wf (degree g)) (elems g) -> is_group (degree g) (perms g) ->
  NoDup (perms g) ->
  exists classes reps cls, conjugacy_classes g = Ok (classes, reps, cls) /\
  length cls = length (perms g) /\ length reps = length classes /\
  (forall i, i < length (perms g) -> nth i cls 0 < length classes /\
     forall c, c < length (perms g) ->
       (nth c (nth (nth i cls 0) classes []) 0 = 1 <->
        conjugate (perms g) (nth i (perms g) []) (nth c (perms g) []))) /\
  (forall r, r < length classes ->
     length (nth r classes []) = length (perms g) /\
     (forall c, c < length (perms g) ->
        nth c (nth r classes []) 0 = 0 \/ nth c (nth r classes []) 0 = 1) /\
     nth r reps 0 < length (perms g) /\ nth (nth r reps 0) cls 0 = r /\
     nth (nth r reps 0) (nth r classes []) 0 = 1 /\
     (forall c, c < length (perms g) -> nth c (nth r classes []) 0 = 1 -> nth r reps 0 <= c)).
Proof. exact classes_thm. Qed.
Print Assumptions C29_classes.

Theorem C29_partition :
  forall g classes reps cls,
  Forall (wf (degree g)) (elems g) -> is_group (degree g) (perms g) -> NoDup (perms g) ->
  conjugacy_classes g = Ok (classes, reps, cls) ->
  forall c, c < length (perms g) ->
  exists! r, r < length classes /\ nth c (nth r classes []) 0 = 1.
Proof. exact classes_partition. Qed.
Print Assumptions C29_partition.

(** C29 fails for a group that lists a permutation twice: the first copy is in no row. *)
Theorem C29_duplicates_refuted :
  exists g classes reps cls, Forall (wf (degree g)) (elems g) /\
    is_group (degree g) (perms g) /\ conjugacy_classes g = Ok (classes, reps, cls) /\
    forall r, nth 0 (nth r classes []) 0 = 0.
Proof.
  exists (PG [EId; EPerm [0;1]] 2). eexists; eexists; eexists.
  split; [repeat constructor|]. split.
  { split; [discriminate|]. split.
    - intros p [<-|[<-|[]]]; exists [0;1]; (split; [now left|split; reflexivity]).
    - intros p q p' [<-|[<-|[]]] [<-|[<-|[]]] I; left;
        (apply (inverses_perm 2) in I as P; [|apply isperm_seq]);
        destruct I as [_ I]; cbn [seq] in *;
        change [0;1] with (seq 0 2) in I; rewrite (times_id_r 2) in I by exact P;
        rewrite I; reflexivity. }
  split; [reflexivity|]. vm_compute. intros [|[|r]]; reflexivity.
Qed.
Print Assumptions C29_duplicates_refuted.

(** Permutations of three sites: classes of the identity, the transpositions and the
    rotations. *)
Definition sym3 := PG [EId; EPerm [1;0;2]; EPerm [2;1;0]; EPerm [0;2;1];
                       EPerm [1;2;0]; EPerm [2;0;1]] 3.
Example C29_ex :
  conjugacy_classes sym3
  = Ok ([[1;0;0;0;0;0];[0;1;1;1;0;0];[0;0;0;0;1;1]], [0;1;4], [0;1;1;1;2;2]).
Proof. reflexivity. Qed.
