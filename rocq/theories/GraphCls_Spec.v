(** * What C118 says, without the model's functions *)
From Coq Require Import List Bool Arith ZArith Sorting.Permutation.
From Verif Require Import Base GraphCls_Model.
Import ListNotations.
Open Scope nat_scope.

(** lists of edges as a user writes them *)
Definition plain_edges (l : list (nat * nat)) : list pyedge :=
  map (fun e => PSeq [Z.of_nat (fst e); Z.of_nat (snd e)]) l.
Definition coloured_edges (l : list edge) : list pyedge :=
  map (fun e => PSeq [Z.of_nat (fst (fst e)); Z.of_nat (snd (fst e)); snd e]) l.

(** undirected: the smaller node first *)
Definition undirected (e : nat * nat) : nat * nat := (Nat.min (fst e) (snd e), Nat.max (fst e) (snd e)).

(** the nodes exist and the smaller one comes first *)
Definition wf (g : graph) : Prop :=
  forall a b c, In (a, b, c) (g_edges g) -> a <= b < g_n g.

Definition raises {A} (r : res A) : Prop := exists e, r = Err e.

(** i and j are joined by an edge of colour c *)
Definition joined (g : graph) (i j : nat) (c : Z) : Prop :=
  In (i, j, c) (g_edges g) \/ In (j, i, c) (g_edges g).

(** a permutation of the nodes that keeps edges and colours *)
Definition automorphism (g : graph) (p : list nat) : Prop :=
  Permutation p (seq 0 (g_n g)) /\
  forall i j c, i < g_n g -> j < g_n g ->
    (joined g i j c <-> joined g (nth i p 0) (nth j p 0) c).

(** first q, then p *)
Definition compose (p q : list nat) : list nat := map (fun i => nth i p 0) q.

(** what igraph's search is supposed to return *)
Definition finds_all (vf2 : graph -> list (list nat)) (g : graph) : Prop :=
  forall p, In p (vf2 g) <-> automorphism g p.

(** a walk along edges *)
Inductive walk (g : graph) : nat -> nat -> Prop :=
| walk_here i : walk g i i
| walk_step i j k c : joined g i j c -> walk g j k -> walk g i k.
