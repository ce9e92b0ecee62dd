(** * Families of point groups (netket/utils/group/axial.py, planar.py, cubic.py)

    Matrices and angles are exact real numbers; numpy's cos, sin and sqrt are those of the
    reals.  A zero axis (division by zero: nan) is outside the model. *)
From Coq Require Import List ZArith QArith Qreals Reals.
From Verif Require Import Base FloatCmp_Model.
Import ListNotations.
Open Scope R_scope.

Record v3 := V3 { vx : R; vy : R; vz : R }.
Record m3 := M3 { m11 : R; m12 : R; m13 : R; m21 : R; m22 : R; m23 : R; m31 : R; m32 : R; m33 : R }.
Definition vadd (a b : v3) : v3 := V3 (vx a + vx b) (vy a + vy b) (vz a + vz b).
Definition vsub (a b : v3) : v3 := V3 (vx a - vx b) (vy a - vy b) (vz a - vz b).
Definition vscal (c : R) (a : v3) : v3 := V3 (c * vx a) (c * vy a) (c * vz a).
Definition vdot (a b : v3) : R := vx a * vx b + vy a * vy b + vz a * vz b.
Definition vzero : v3 := V3 0 0 0.
Definition norm (a : v3) : R := sqrt (vdot a a).
(** np.asarray(axis) / np.linalg.norm(axis) *)
Definition unit_of (a : v3) : v3 := V3 (vx a / norm a) (vy a / norm a) (vz a / norm a).
Definition madd (A B : m3) : m3 :=
  M3 (m11 A + m11 B) (m12 A + m12 B) (m13 A + m13 B) (m21 A + m21 B) (m22 A + m22 B) (m23 A + m23 B) (m31 A + m31 B) (m32 A + m32 B) (m33 A + m33 B).
Definition mscal (c : R) (A : m3) : m3 :=
  M3 (c * m11 A) (c * m12 A) (c * m13 A) (c * m21 A) (c * m22 A) (c * m23 A) (c * m31 A) (c * m32 A) (c * m33 A).
Definition msub (A B : m3) : m3 := madd A (mscal (-1) B).
Definition mapply (A : m3) (v : v3) : v3 :=
  V3 (m11 A * vx v + m12 A * vy v + m13 A * vz v) (m21 A * vx v + m22 A * vy v + m23 A * vz v) (m31 A * vx v + m32 A * vy v + m33 A * vz v).
Definition mmul (A B : m3) : m3 :=
  M3 (m11 A * m11 B + m12 A * m21 B + m13 A * m31 B) (m11 A * m12 B + m12 A * m22 B + m13 A * m32 B) (m11 A * m13 B + m12 A * m23 B + m13 A * m33 B)
     (m21 A * m11 B + m22 A * m21 B + m23 A * m31 B) (m21 A * m12 B + m22 A * m22 B + m23 A * m32 B) (m21 A * m13 B + m22 A * m23 B + m23 A * m33 B)
     (m31 A * m11 B + m32 A * m21 B + m33 A * m31 B) (m31 A * m12 B + m32 A * m22 B + m33 A * m32 B) (m31 A * m13 B + m32 A * m23 B + m33 A * m33 B).
Definition eye3 : m3 := M3 1 0 0 0 1 0 0 0 1.
(** np.cross(np.eye(3), u): row i is e_i x u *)
Definition cross_eye (u : v3) : m3 := M3 0 (- vz u) (vy u) (vz u) 0 (- vx u) (- vy u) (vx u) 0.
Definition outer (u : v3) : m3 :=
  M3 (vx u * vx u) (vx u * vy u) (vx u * vz u) (vy u * vx u) (vy u * vy u) (vy u * vz u) (vz u * vx u) (vz u * vy u) (vz u * vz u).

(** PGSymmetry: x -> W x + w.  Identity() is kept apart. *)
Record sym3 := Sym3 { s_W : m3; s_w : v3 }.
Inductive elem := EId | ESym (s : sym3).
(** _semigroup.py 59-76, _point_group.py 151-158: products *)
Definition prod_sym (p q : sym3) : sym3 := Sym3 (mmul (s_W p) (s_W q)) (vadd (mapply (s_W p) (s_w q)) (s_w p)).
Definition prod_elem (a b : elem) : elem :=
  match a, b with EId, b => b | a, EId => a | ESym p, ESym q => ESym (prod_sym p q) end.
(** _point_group.py: product of point groups, all pairs *)
Definition prod_group (A B : list elem) : list elem := map (fun ab => prod_elem (fst ab) (snd ab)) (list_prod A B).
Definition pure (W : m3) : elem := ESym (Sym3 W vzero).

(** degrees *)
Definition radians (d : R) : R := d * PI / 180.
(** axial.py 34-40 *)
Definition rot_matrix (t : R) (u : v3) : m3 :=
  madd (madd (mscal (cos t) eye3) (mscal (sin t) (cross_eye u))) (mscal (1 - cos t) (outer u)).
(** axial.py 32-41: rotation *)
Definition rotation (angle : R) (axis : v3) : elem := pure (rot_matrix (radians angle) (unit_of axis)).
(** range(1, n) *)
Definition range1 (n : Z) : list Z := map Z.of_nat (seq 1 (Z.to_nat (n - 1))).
(** axial.py 44-58: C *)
Definition C (n : Z) (axis : v3) : list elem := EId :: map (fun i => rotation (360 / IZR n * IZR i) axis) (range1 n).
(** axial.py 115-118: reflection; 122-127: reflection_group *)
Definition refl_matrix (u : v3) : m3 := msub eye3 (mscal 2 (outer u)).
Definition reflection (axis : v3) : elem := pure (refl_matrix (unit_of axis)).
Definition reflection_group (axis : v3) : list elem := [EId; reflection axis].
(** axial.py 100-111: inversion *)
Definition inversion : elem := pure (mscal (-1) eye3).
Definition inversion_group : list elem := [EId; inversion].
(** np.isclose(np.dot(axis, axis2), 0.0), default tolerance 1e-8 *)
Definition perpendicular_b (a b : v3) : bool := if Rle_dec (Rabs (vdot a b)) (1 / 100000000) then true else false.
(** axial.py 163-176: Ch *)
Definition Ch (n : Z) (axis : v3) : list elem := prod_group (reflection_group axis) (C n axis).
(** axial.py 180-195: Cv *)
Definition Cv (n : Z) (axis axis2 : v3) : res (list elem) :=
  if perpendicular_b axis axis2 then Ok (prod_group (reflection_group axis2) (C n axis)) else Err AssertionError.
(** axial.py 202-212: rotoreflection *)
Definition rotoreflection (angle : R) (axis : v3) : elem :=
  pure (mmul (refl_matrix (unit_of axis)) (rot_matrix (radians angle) (unit_of axis))).
(** axial.py 216-241: S *)
Definition S_ (n : Z) (axis : v3) : list elem :=
  if Z.eqb (n mod 2) 1 then Ch n axis
  else EId :: map (fun i => if Z.eqb (i mod 2) 1 then rotoreflection (360 / IZR n * IZR i) axis else rotation (360 / IZR n * IZR i) axis) (range1 n).
(** axial.py 249-264: D *)
Definition D (n : Z) (axis axis2 : v3) : res (list elem) :=
  if perpendicular_b axis axis2 then Ok (prod_group (C 2 axis2) (C n axis)) else Err AssertionError.
(** axial.py 277-293: Dh *)
Definition Dh (n : Z) (axis axis2 : v3) : res (list elem) := let? d := D n axis axis2 in Ok (prod_group (reflection_group axis) d).
(** axial.py 306-321: Dd *)
Definition Dd (n : Z) (axis axis2 : v3) : res (list elem) :=
  if perpendicular_b axis axis2 then Ok (prod_group (reflection_group axis2) (S_ (2 * n) axis)) else Err AssertionError.

(** axial.py 64-76: screw; the angle in degrees is a rational number *)
Definition screw (angle : R) (trans origin : v3) : elem :=
  let W := rot_matrix (radians angle) (unit_of trans) in
  ESym (Sym3 W (vadd trans (mapply (msub eye3 W) origin))).
(** axial.py 80-96: screw_group; [None] if the loop has not ended after [fuel] rounds *)
Fixpoint screw_loop (fuel : nat) (i : Z) (angle : Q) (trans origin : v3) : option (list elem) :=
  match fuel with
  | O => None
  | S fuel =>
      if is_approx_int default_atol (inject_Z i * angle / 360) then Some []
      else option_map (cons (screw (IZR i * Q2R angle) (vscal (IZR i) trans) origin)) (screw_loop fuel (i + 1) angle trans origin)
  end.
Definition screw_group (fuel : nat) (angle : Q) (trans origin : v3) : option (list elem) :=
  option_map (cons EId) (screw_loop fuel 1 angle trans origin).
(** axial.py 131-143: glide; 147-159: glide_group *)
Definition glide (axis trans origin : v3) : res elem :=
  if perpendicular_b axis trans then
    let W := refl_matrix (unit_of axis) in Ok (ESym (Sym3 W (vadd trans (mapply (msub eye3 W) origin))))
  else Err AssertionError.
Definition glide_group (axis trans origin : v3) : res (list elem) := let? g := glide axis trans origin in Ok [EId; g].

(** cubic.py 44-66: T; 72-77: Td; 84-86: Th; 93-97: O; 104-106: Oh *)
Definition T_ : list elem :=
  [EId; rotation 120 (V3 1 1 1); rotation 120 (V3 1 (-1) (-1)); rotation 120 (V3 (-1) 1 (-1)); rotation 120 (V3 (-1) (-1) 1);
   rotation (-120) (V3 1 1 1); rotation (-120) (V3 1 (-1) (-1)); rotation (-120) (V3 (-1) 1 (-1)); rotation (-120) (V3 (-1) (-1) 1);
   rotation 180 (V3 0 0 1); rotation 180 (V3 0 1 0); rotation 180 (V3 1 0 0)].
Definition Td : list elem := prod_group (reflection_group (V3 1 1 0)) T_.
Definition Th : list elem := prod_group inversion_group T_.
Definition O_ : list elem := prod_group [EId; rotation 90 (V3 0 0 1)] T_.
Definition Oh : list elem := prod_group inversion_group O_.
(** _point_group.py 131-136, 512-524: change_origin; cubic.py 113-118: Fd3m (elements) *)
Definition change_origin (o : v3) (e : elem) : elem :=
  match e with EId => EId | ESym s => ESym (Sym3 (s_W s) (mapply (msub eye3 (s_W s)) o)) end.
Definition Fd3m : list elem := prod_group (map (change_origin (V3 (1 / 8) (1 / 8) (1 / 8))) inversion_group) Td.

(** ** planar.py *)
Record v2 := V2 { px : R; py : R }.
Record m2 := M2 { a11 : R; a12 : R; a21 : R; a22 : R }.
Record sym2 := Sym2 { p_W : m2; p_w : v2 }.
Inductive pelem := PId | PSym (s : sym2).
Definition apply2 (A : m2) (v : v2) : v2 := V2 (a11 A * px v + a12 A * py v) (a21 A * px v + a22 A * py v).
Definition add2 (a b : v2) : v2 := V2 (px a + px b) (py a + py b).
Definition mul2 (A B : m2) : m2 :=
  M2 (a11 A * a11 B + a12 A * a21 B) (a11 A * a12 B + a12 A * a22 B) (a21 A * a11 B + a22 A * a21 B) (a21 A * a12 B + a22 A * a22 B).
Definition eye2 : m2 := M2 1 0 0 1.
Definition zero2 : v2 := V2 0 0.
Definition sub2 (A B : m2) : m2 := M2 (a11 A - a11 B) (a12 A - a12 B) (a21 A - a21 B) (a22 A - a22 B).
Definition prod2 (a b : pelem) : pelem :=
  match a, b with
  | PId, b => b | a, PId => a
  | PSym p, PSym q => PSym (Sym2 (mul2 (p_W p) (p_W q)) (add2 (apply2 (p_W p) (p_w q)) (p_w p)))
  end.
Definition prod_group2 (A B : list pelem) : list pelem := map (fun ab => prod2 (fst ab) (snd ab)) (list_prod A B).
(** planar.py 33-43: rotation; 47-60: C *)
Definition rot2 (t : R) : m2 := M2 (cos t) (- sin t) (sin t) (cos t).
Definition protation (angle : R) : pelem := PSym (Sym2 (rot2 (radians angle)) zero2).
Definition pC (n : Z) : list pelem := PId :: map (fun i => protation (360 / IZR n * IZR i)) (range1 n).
(** planar.py 66-76: reflection; 80-88: reflection_group *)
Definition refl2 (t : R) : m2 := M2 (cos t) (sin t) (sin t) (- cos t).
Definition preflection (angle : R) : pelem := PSym (Sym2 (refl2 (radians angle * 2)) zero2).
Definition preflection_group (angle : R) : list pelem := [PId; preflection angle].
(** planar.py 92-104: glide, with [phi] = arctan2(trans[1], trans[0]); 108-120: glide_group *)
Definition pglide (phi : R) (trans origin : v2) : pelem :=
  let W := refl2 (phi * 2) in PSym (Sym2 W (add2 trans (apply2 (sub2 eye2 W) origin))).
Definition pglide_group (phi : R) (trans origin : v2) : list pelem := [PId; pglide phi trans origin].
(** planar.py 124-137: D *)
Definition pD (n : Z) (axis : R) : list pelem := prod_group2 (preflection_group axis) (pC n).
