(** What C90 means, independently of the implementation. *)
From Coq Require Import List Arith Bool ZArith QArith Qcanon.
From Verif Require Import Base PointGp_Model PointGp_Spec.
Import ListNotations.
Open Scope nat_scope.

(** a permutation of the axes *)
Definition axis_perm (n : nat) (s : nat -> nat) : Prop :=
  (forall i, i < n -> s i < n) /\ (forall i j, i < n -> j < n -> s i = s j -> i = j).
(** it exchanges only axes of the same length and the same boundary conditions *)
Definition keeps_box (extent : list Z) (pbc : list bool) (s : nat -> nat) : Prop :=
  forall i, i < length extent -> nth (s i) extent 0%Z = nth i extent 0%Z /\ nth (s i) pbc false = nth i pbc false.
(** the middle of the box along open axes *)
Definition centre (extent : list Z) (pbc : list bool) (c : vec) : Prop :=
  forall i, i < length extent ->
  if nth i pbc false then c i = 0%Qc else (c i + c i = Q2Qc (inject_Z (nth i extent 0%Z - 1)))%Qc.
Definition sgn (b : bool) : Qc := if b then (- (1))%Qc else 1%Qc.
(** Axes are permuted and some are reversed, about the point [c]. *)
Definition box_map (c : vec) (s : nat -> nat) (f : nat -> bool) : vec -> vec :=
  fun x i => (c i + sgn (f i) * (x (s i) - c (s i)))%Qc.
Definition acts_as (n : nat) (a : elem) (f : vec -> vec) : Prop := forall x, veq n (e_act a x) (f x).
Definition boxed (extent : list Z) (pbc : list bool) : Prop := length pbc = length extent /\ Forall (fun e => (1 <= e)%Z) extent.
(** Cells next to each other in the box: one step apart along one axis, which may be the step
    from the last cell to the first if the axis is periodic. *)
Definition box_neighbours (extent : list Z) (pbc : list bool) (u v : nat -> Z) : Prop :=
  exists a, a < length extent /\ (forall d, d < length extent -> d <> a -> u d = v d) /\
  (Z.abs (u a - v a) = 1%Z \/ nth a pbc false = true /\ Z.abs (u a - v a) = (nth a extent 0 - 1)%Z).
