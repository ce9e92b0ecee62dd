(** * C57, C63: cached properties of dataclasses *)
From Coq Require Import List ZArith.
From Verif Require Import Base Struct_Model Struct_Spec Struct_Proofs.
Import ListNotations.

(** Through any history of constructions, accesses, replace() and from_state_dict(), an
    access returns, or raises, exactly what the method gives for the present fields; the
    fields themselves are not changed by it. *)
Theorem C57_never_stale : forall (D M V : Type) (meth : nat -> D -> M -> method V) pre_init ops p o fuel i r o',
  forallb (fun o => negb (is_tree o)) ops = true ->
  nth_error (fold_left (step D M V meth pre_init) ops []) p = Some o ->
  access D M V meth fuel o i = Some (r, o') ->
  current meth o i r /\ (forall r', current meth o i r' -> r' = r) /\ data o' = data o /\ meta o' = meta o.
Proof. exact @history_main. Qed.
Print Assumptions C57_never_stale.

(** And it returns whenever the method does. *)
Theorem C57_returns : forall (D M V : Type) (meth : nat -> D -> M -> method V) pre_init ops p o i r,
  forallb (fun o => negb (is_tree o)) ops = true ->
  nth_error (fold_left (step D M V meth pre_init) ops []) p = Some o ->
  current meth o i r -> exists fuel o', access D M V meth fuel o i = Some (r, o').
Proof. exact @returns_main. Qed.
Print Assumptions C57_returns.

(** An object keeps its fields for ever. *)
Theorem C57_frozen : forall (D M V : Type) (meth : nat -> D -> M -> method V) pre_init ops heap p o,
  nth_error heap p = Some o ->
  exists o', nth_error (fold_left (step D M V meth pre_init) ops heap) p = Some o' /\ data o' = data o /\ meta o' = meta o.
Proof. exact @frozen_main. Qed.
Print Assumptions C57_frozen.

(** A class with a field x and the cached properties double = 2 x and next = double + 1. *)
Definition ex_meth (i : nat) (d : Z) (_ : unit) : method Z :=
  match i with O => Ret (2 * d)%Z | _ => Access 0 (fun v => Ret (v + 1)%Z) end.
Definition ex_run (ops : list (op Z unit)) := fold_left (step Z unit Z ex_meth (fun f => f)) ops [].

(** jax.tree_map on an object whose caches are empty gives current values.  Missing from the
    full statement: objects whose properties have been accessed. *)
Theorem C63_tree_map_partial : forall (D M V : Type) (meth : nat -> D -> M -> method V) (o : obj D M V) g fuel i r o',
  (forall j, cache o j = None) ->
  access D M V meth fuel (tree_map D M V o g) i = Some (r, o') -> current meth (tree_map D M V o g) i r.
Proof. exact @tree_main. Qed.
Print Assumptions C63_tree_map_partial.

(** After an access, tree_map hands the cached value to the new object. *)
Theorem C63_tree_map_refuted : exists o1 o o',
  ex_run [ONew 3%Z tt; OAccess 0 5 0; OTree 0 (fun x => x + 7)%Z] = [o1; o] /\
  data o = 10%Z /\ access Z unit Z ex_meth 5 o 0 = Some (Ok 6%Z, o') /\ current ex_meth o 0 (Ok 20%Z).
Proof.
  do 3 eexists. split; [reflexivity|]. split; [reflexivity|]. split; [reflexivity|]. exists 5%nat. reflexivity.
Qed.
Print Assumptions C63_tree_map_refuted.

(** Equal objects have different tree structures once one of them has been accessed, so that
    jax refuses to map over both. *)
Theorem C63_structure_refuted : exists o1 o2, ex_run [ONew 3%Z tt; ONew 3%Z tt; OAccess 0 5 1] = [o1; o2] /\
  data o1 = data o2 /\ meta o1 = meta o2 /\ tree_structure Z unit Z 2 o1 <> tree_structure Z unit Z 2 o2.
Proof. do 2 eexists. split; [reflexivity|]. split; [reflexivity|]. split; [reflexivity|]. discriminate. Qed.
Print Assumptions C63_structure_refuted.

Example C57_ex : exists o1 o2 o2', ex_run [ONew 3%Z tt; OAccess 0 5 1; OReplace 0 (fun f => (10%Z, snd f))] = [o1; o2] /\
  cache o1 1 = Some 7%Z /\ access Z unit Z ex_meth 5 o2 1 = Some (Ok 21%Z, o2').
Proof. do 3 eexists. split; [reflexivity|]. split; reflexivity. Qed.
