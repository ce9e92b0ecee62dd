(** What C31 means. *)
From Coq Require Import List Arith ZArith.
From Verif Require Import Base Lattice_Model.
Import ListNotations.
Open Scope Z_scope.

(** A cell of the box: one coordinate 0 <= c < extent per axis. *)
Definition in_box (extent : list Z) (c : coord) : Prop :=
  Forall2 (fun x e => 0 <= x < e) c extent.

(** [v] is [u] moved by +1 along one axis; around the boundary if that axis is
    periodic. *)
Inductive step : list Z -> list bool -> coord -> coord -> Prop :=
| step_here e es p ps x y c :
    y = x + 1 \/ (p = true /\ x = e - 1 /\ y = 0) -> step (e :: es) (p :: ps) (x :: c) (y :: c)
| step_there e es p ps x c c' :
    step es ps c c' -> step (e :: es) (p :: ps) (x :: c) (x :: c').
Definition neighbours (extent : list Z) (pbc : list bool) (u v : coord) : Prop :=
  step extent pbc u v \/ step extent pbc v u.

(** Lexicographic order of coordinates. *)
Fixpoint lex (a b : coord) : Prop :=
  match a, b with
  | x :: a', y :: b' => x < y \/ (x = y /\ lex a' b')
  | _, _ => False
  end.

Definition has_edge (L : lattice) (i j : nat) : Prop :=
  In (i, j) (l_edges L) \/ In (j, i) (l_edges L).

(** The cell from which a cell is reached by the translation [s]: u - s, taken modulo the
    extent along periodic axes (along open axes nothing moves). *)
Fixpoint shifted (extent : list Z) (pbc : list bool) (s : list Z) (u : coord) : coord :=
  match extent, pbc, s, u with
  | e :: es, p :: ps, k :: s', x :: u' =>
      (if p then (x - k) mod e else x) :: shifted es ps s' u'
  | _, _, _, _ => []
  end.

(** The permutation [p] of the sites of [L] is the translation by [s]. *)
Definition is_translation (L : lattice) (s : list Z) (p : list nat) : Prop :=
  length s = length (l_extent L) /\
  forall i, (i < length (l_sites L))%nat ->
    nth (nth i p 0%nat) (l_sites L) [] = shifted (l_extent L) (l_pbc L) s (nth i (l_sites L) []).

(** The number of translations along an axis. *)
Definition n_translations (extent : list Z) (pbc : list bool) (axis : nat) : nat :=
  if nth axis pbc false then Z.to_nat (nth axis extent 0) else 1%nat.
