(** What C85 means, independently of the implementation.  A site is a cell followed by the
    label of the site in the unit cell. *)
From Coq Require Import List ZArith QArith Qabs Sorted.
From Verif Require Import Base Lattice_Model Lattice_Spec FloatCmp_Model FloatCmp_Spec LatGen_Model.
Import ListNotations.
Open Scope Z_scope.

Definition valid (g : geometry) : Prop :=
  length (g_pbc g) = length (g_extent g) /\ Forall (fun e => 1 <= e) (g_extent g) /\ g_offsets g <> [].

(** The sites of the box, and those of the box surrounded by one layer of cells along the
    periodic directions. *)
Definition of_box (g : geometry) (c : coord) : Prop := in_box (ext g) c.
Definition around (g : geometry) (c : coord) : Prop :=
  Forall2 (fun x ep => if (snd ep : bool) then -1 <= x <= fst ep else 0 <= x < fst ep) c (combine (ext g) (per g)).
(** The site of the box that a site stands for. *)
Definition folded (g : geometry) (c : coord) : coord := map (fun xe => fst xe mod snd xe) (combine c (ext g)).
(** A (squared) distance not above the length of some basis vector. *)
Definition within_basis (g : geometry) (x : Q) : Prop :=
  exists i, (i < length (g_gram g))%nat /\ (x <= nth i (nth i (g_gram g) []) 0)%Q.
(** Two sites at the smallest distance that occurs, not above the length of the longest
    basis vector. *)
Definition nearest_pair (g : geometry) (u v : coord) : Prop :=
  around g u /\ around g v /\ (0 < sqdist g u v)%Q /\ within_basis g (sqdist g u v) /\
  forall u' v', around g u' -> around g v' -> (0 < sqdist g u' v' -> sqdist g u v <= sqdist g u' v')%Q.
(** The same, with at least one of them in the box. *)
Definition linked (g : geometry) (u v : coord) : Prop := nearest_pair g u v /\ (of_box g u \/ of_box g v).
(** Sites of the box of which some images are linked. *)
Definition adjacent (g : geometry) (c d : coord) : Prop :=
  exists u v, linked g u v /\ folded g u = c /\ folded g v = d.

(** Two numbers are in the same place along an axis, to the accuracy of the bins: their
    fractions of the box agree up to the width, and up to an integer if it is periodic. *)
Definition same_place (p : bool) (e : Z) (x y : Q) : Prop :=
  exists n, (p = false -> n = 0) /\ (Qabs (x / inject_Z e - y / inject_Z e - inject_Z n) <= width)%Q.
(** Positions move by [n_d] boxes along direction [d]. *)
Definition moved (g : geometry) (n : list Z) (y : list Q) : list Q :=
  map (fun t => (fst t + inject_Z (fst (snd t) * snd (snd t)))%Q) (combine y (combine n (g_extent g))).
(** [n] moves along periodic directions only. *)
Definition shift_ok (g : geometry) (n : list Z) : Prop :=
  length n = length (g_extent g) /\ Forall (fun np => snd np = false -> fst np = 0) (combine n (g_pbc g)).
(** [y] and [z] are in the same place along every axis. *)
Definition same_position (g : geometry) (y z : list Q) : Prop :=
  forall d, (d < length (g_extent g))%nat ->
    same_place (nth d (g_pbc g) false) (nth d (g_extent g) 0) (nth d y 0%Q) (nth d z 0%Q).
(** Every offset has a component for every basis vector. *)
Definition shaped (g : geometry) : Prop := Forall (fun o => length o = length (g_extent g)) (g_offsets g).
(** The cell moved by [d]. *)
Definition plus_cell (c d : coord) : coord := map (fun xy => fst xy + snd xy) (combine c d).
(** Two offsets are in the same place along every axis of the unit cell, to the accuracy of the bins. *)
Definition same_offset (o o' : list Q) : Prop := Forall2 (same_place true 1) o o'.
(** Two offsets which differ by a lattice vector. *)
Definition translate (o o' : list Q) : Prop := Forall2 (fun x y => exists n, (y == x + inject_Z n)%Q) o o'.
