(** C30: HashableArray. *)
From Coq Require Import List Arith Bool ZArith.
From Verif Require Import Base HashArray_Model HashArray_Proofs.
Import ListNotations.
Open Scope nat_scope.

(** C30, partial: holds among arrays of the same shape and item type (the way the
    library uses it as a dictionary key).  It fails without these hypotheses. *)
Theorem C30_same_shape_partial :
  forall a b, shp a = shp b -> dt a = dt b ->
  has_shape (shp a) (val a) -> has_shape (shp b) (val b) ->
  (harr_eq a b = true <-> val a = val b) /\
  (harr_eq a b = true -> forall H (hash_bytes : list Z -> H),
     harr_hash hash_bytes a = harr_hash hash_bytes b).
Proof.
  intros a b E D Ha Hb. split; [now apply harr_eq_same|].
  intros X H hb. now apply harr_hash_same.
Qed.
Print Assumptions C30_same_shape_partial.

(** Different shapes: [1] and [1, 1] compare equal; their byte strings differ, so some
    hash function tells them apart.  An empty array equals any one-element array. *)
Theorem C30_broadcast_refuted :
  exists a b, has_shape (shp a) (val a) /\ has_shape (shp b) (val b) /\ dt a = dt b /\
    harr_eq a b = true /\ shp a <> shp b /\ val a <> val b /\
    exists hash_bytes : list Z -> nat, harr_hash hash_bytes a <> harr_hash hash_bytes b.
Proof.
  exists (MkArr I64 [1] (Ar [Sc 1])), (MkArr I64 [2] (Ar [Sc 1; Sc 1])).
  repeat split; try (cbn; tauto); try discriminate.
  exists (@length Z). vm_compute. discriminate.
Qed.
Print Assumptions C30_broadcast_refuted.

(** Same shape and entries, different item types: equal, with different byte strings. *)
Theorem C30_dtype_refuted :
  exists a b, has_shape (shp a) (val a) /\ has_shape (shp b) (val b) /\ shp a = shp b /\
    harr_eq a b = true /\
    exists hash_bytes : list Z -> nat, harr_hash hash_bytes a <> harr_hash hash_bytes b.
Proof.
  exists (MkArr I32 [2] (Ar [Sc 0; Sc 1])), (MkArr I64 [2] (Ar [Sc 0; Sc 1])).
  repeat split; try (cbn; tauto).
  exists (@length Z). vm_compute. discriminate.
Qed.
Print Assumptions C30_dtype_refuted.

Example C30_ex :
  let a := MkArr I64 [2;2] (Ar [Ar [Sc 1; Sc 2]; Ar [Sc 3; Sc (-4)]]) in
  let b := MkArr I64 [2;2] (Ar [Ar [Sc 1; Sc 2]; Ar [Sc 3; Sc 4]]) in
  has_shape (shp a) (val a) /\ has_shape (shp b) (val b) /\
  harr_eq a a = true /\ harr_eq a b = false /\ tobytes a <> tobytes b.
Proof. repeat split; try (cbn; tauto). vm_compute. discriminate. Qed.
