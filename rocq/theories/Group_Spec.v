(** What C27-C29 mean, independently of the implementation. *)
From Coq Require Import List Arith Permutation Sorted.
From Verif Require Import Group_Model.
Import ListNotations.

(** [p] lists every number below [n] exactly once. *)
Definition isperm (n : nat) (p : list nat) : Prop := Permutation p (seq 0 n).

(** An element built from permutations of [n] sites. *)
Fixpoint wf (n : nat) (e : elem) : Prop :=
  match e with
  | EId => True
  | EPerm p | EOther p => isperm n p
  | EComp l r => wf n l /\ wf n r
  end.

(** The array that results from moving entry p[k] of [x] to place [k], for all k. *)
Definition permuted {A} (d : A) (p : list nat) (x : list A) : list A :=
  map (fun k => nth k x d) p.

(** The permutation "first q, then p". *)
Definition times (p q : list nat) : list nat := permuted 0 p q.

(** [q] undoes [p], in both orders. *)
Definition inverses (n : nat) (p q : list nat) : Prop :=
  times p q = seq 0 n /\ times q p = seq 0 n.

(** The permutations [rows] are closed under inversion / under g, h |-> g^-1 h. *)
Definition has_inverses (n : nat) (rows : list (list nat)) : Prop :=
  forall p, In p rows -> exists q, In q rows /\ inverses n p q.
Definition closed (n : nat) (rows : list (list nat)) : Prop :=
  forall p q p', In p rows -> In q rows -> inverses n p p' -> In (times p' q) rows.
Definition is_group (n : nat) (rows : list (list nat)) : Prop :=
  rows <> [] /\ has_inverses n rows /\ closed n rows.

(** The permutation an element stands for. *)
Fixpoint perm_of (n : nat) (e : elem) : list nat :=
  match e with
  | EId => seq 0 n
  | EPerm p | EOther p => p
  | EComp l r => times (perm_of n l) (perm_of n r)
  end.
Definition perms (g : pgroup) : list (list nat) := map (perm_of (degree g)) (elems g).

(** [l'] lists the entries of [l] that have no equal (by [key]) entry before them, in
    the order of [l]. *)
Definition first_appearances {A K} (key : A -> K) (d : A) (l l' : list A) : Prop :=
  exists idx, StronglySorted lt idx /\ l' = map (fun i => nth i l d) idx
    /\ forall i, In i idx <->
         (i < length l /\ forall j, j < i -> key (nth j l d) <> key (nth i l d)).

(** [c] = h^-1 g h for some member h:  h c = g h. *)
Definition conjugate (rows : list (list nat)) (g c : list nat) : Prop :=
  exists h, In h rows /\ times h c = times g h.
