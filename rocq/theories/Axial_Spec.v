(** What C89 means, independently of the implementation. *)
From Coq Require Import List ZArith QArith Reals.
From Verif Require Import Base Axial_Model.
Import ListNotations.
Open Scope R_scope.

(** Lists of maps of a space, and when such a list is a finite group of maps.  [same] tells which
    points are identified: none, or those that differ by a lattice vector. *)
Section Maps.
Context {E V : Type} (act : E -> V -> V) (same : V -> V -> Prop).
Definition same_map (a b : E) : Prop := forall x, same (act a x) (act b x).
Record finite_group (l : list E) : Prop := {
  fg_identity : exists e, hd_error l = Some e /\ forall x, same (act e x) x;
  fg_closed : forall a b, In a l -> In b l -> exists c, In c l /\ forall x, same (act a (act b x)) (act c x);
  fg_inverse : forall a, In a l -> exists b, In b l /\ (forall x, same (act a (act b x)) x) /\ (forall x, same (act b (act a x)) x);
  fg_distinct : ForallOrdPairs (fun a b => ~ same_map a b) l
}.
(** the elements of [l] are the products of the generators *)
Definition act_word (w : list E) (x : V) : V := fold_right (fun g y => act g y) x w.
Definition generated_by (gens l : list E) : Prop :=
  (forall a, In a l -> exists w, (forall g, In g w -> In g gens) /\ forall x, same (act a x) (act_word w x)) /\
  (forall w, (forall g, In g w -> In g gens) -> exists a, In a l /\ forall x, same (act a x) (act_word w x)).
End Maps.

(** the map of an element *)
Definition act (e : elem) (x : v3) : v3 := match e with EId => x | ESym s => vadd (mapply (s_W s) x) (s_w s) end.
Definition act2 (e : pelem) (x : v2) : v2 := match e with PId => x | PSym s => add2 (apply2 (p_W s) x) (p_w s) end.

Definition cross (a b : v3) : v3 := V3 (vy a * vz b - vz a * vy b) (vz a * vx b - vx a * vz b) (vx a * vy b - vy a * vx b).
(** [f] is the right-handed rotation by [t] radians around the axis: it is linear, fixes the axis and turns the plane perpendicular to it *)
Definition linear (f : v3 -> v3) : Prop := forall c a b, f (vadd (vscal c a) b) = vadd (vscal c (f a)) (f b).
Definition is_rotation (t : R) (axis : v3) (f : v3 -> v3) : Prop :=
  linear f /\ f axis = axis /\
  forall v, vdot axis v = 0 -> f v = vadd (vscal (cos t) v) (vscal (sin t / norm axis) (cross axis v)).
Definition is_reflection (axis : v3) (f : v3 -> v3) : Prop :=
  linear f /\ f axis = vscal (-1) axis /\ forall v, vdot axis v = 0 -> f v = v.
(** points that differ by a multiple of [t] *)
Definition mod_trans (t : v3) (x y : v3) : Prop := exists k : Z, vsub x y = vscal (IZR k) t.
Definition mod_trans2 (t : v2) (x y : v2) : Prop := exists k : Z, x = add2 y (V2 (IZR k * px t) (IZR k * py t)).
(** points that differ by a vector of the face-centred cubic lattice *)
Definition mod_fcc (x y : v3) : Prop :=
  exists a b c : Z, vsub x y = V3 (IZR (b + c) / 2) (IZR (a + c) / 2) (IZR (a + b) / 2).

(** ** the cube and the tetrahedron *)
Definition pm (x : R) : Prop := x = 1 \/ x = -1.
Definition cube_vertex (v : v3) : Prop := pm (vx v) /\ pm (vy v) /\ pm (vz v).
Definition tetra_vertex (v : v3) : Prop := cube_vertex v /\ vx v * vy v * vz v = 1.
Definition isometry (W : m3) : Prop := forall a b, vdot (mapply W a) (mapply W b) = vdot a b.
Definition det (A : m3) : R :=
  m11 A * (m22 A * m33 A - m23 A * m32 A) - m12 A * (m21 A * m33 A - m23 A * m31 A) + m13 A * (m21 A * m32 A - m22 A * m31 A).
(** [l] consists of the maps x -> W x with [P W], and of no other *)
Definition exactly (l : list elem) (P : m3 -> Prop) : Prop :=
  (forall e, In e l -> exists W, P W /\ forall x, act e x = mapply W x) /\
  (forall W, P W -> exists e, In e l /\ forall x, act e x = mapply W x).
Definition maps_set (P : v3 -> Prop) (W : m3) : Prop := forall v, P v -> P (mapply W v).
(** in the plane: the rotation by [t], and the reflection that fixes the direction at angle [t] *)
Definition dir2 (t : R) : v2 := V2 (cos t) (sin t).
Definition is_rotation2 (t : R) (f : v2 -> v2) : Prop := forall r s, f (V2 (r * cos s) (r * sin s)) = V2 (r * cos (s + t)) (r * sin (s + t)).
Definition is_reflection2 (t : R) (f : v2 -> v2) : Prop := forall r s, f (V2 (r * cos (t + s)) (r * sin (t + s))) = V2 (r * cos (t - s)) (r * sin (t - s)).
(** the points (0, +-1, +-2), (+-2, 0, +-1), (+-1, +-2, 0): corners of a pyritohedral icosahedron *)
Definition pm_ (a x : R) : Prop := x = a \/ x = - a.
Definition pyrito_vertex (v : v3) : Prop :=
  (vx v = 0 /\ pm_ 1 (vy v) /\ pm_ 2 (vz v)) \/ (pm_ 2 (vx v) /\ vy v = 0 /\ pm_ 1 (vz v)) \/ (pm_ 1 (vx v) /\ pm_ 2 (vy v) /\ vz v = 0).
