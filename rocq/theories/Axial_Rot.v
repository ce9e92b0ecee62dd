(** Rotations and reflections (for C89). *)
From Coq Require Import List Arith ZArith Reals Lra Lia Nsatz.
From Verif Require Import Base Axial_Model Axial_Spec Axial_Alg.
Import ListNotations.
Open Scope R_scope.

Ltac m3 := repeat match goal with A : m3 |- _ => destruct A | A : v3 |- _ => destruct A end;
  cbv [mmul madd msub mscal mapply eye3 cross_eye outer rot_matrix refl_matrix vadd vsub vscal vdot vzero cross det m11 m12 m13 m21 m22 m23 m31 m32 m33 vx vy vz] in *; try match goal with |- @eq Axial_Model.m3 _ _ => f_equal | |- @eq v3 _ _ => f_equal end.
Lemma mmul_assoc A B D : mmul A (mmul B D) = mmul (mmul A B) D.
Proof. m3; ring. Qed.
Lemma mmul_1_l A : mmul eye3 A = A.
Proof. m3; ring. Qed.
Lemma mmul_1_r A : mmul A eye3 = A.
Proof. m3; ring. Qed.
Lemma mapply_mul A B x : mapply (mmul A B) x = mapply A (mapply B x).
Proof. m3; ring. Qed.
Lemma mapply_1 x : mapply eye3 x = x.
Proof. m3; ring. Qed.
Lemma mapply_lin A : linear (mapply A).
Proof. intros c a b. m3; ring. Qed.
Lemma mapply_ext A B : (forall x, mapply A x = mapply B x) -> A = B.
Proof.
  intros H. pose proof (H (V3 1 0 0)) as H1. pose proof (H (V3 0 1 0)) as H2. pose proof (H (V3 0 0 1)) as H3. clear H.
  m3; injection H1; injection H2; injection H3; intros; lra.
Qed.
Lemma det_mul A B : det (mmul A B) = det A * det B.
Proof. m3; ring. Qed.
Lemma det_1 : det eye3 = 1.
Proof. m3; ring. Qed.

(** unit axes *)
Definition isunit (u : v3) : Prop := vdot u u = 1.
Lemma vdot_pos a : a <> vzero -> 0 < vdot a a.
Proof.
  intros H. destruct a as [x y z]. cbv [vdot vx vy vz]. pose proof (Rle_0_sqr x) as X. pose proof (Rle_0_sqr y) as Y. pose proof (Rle_0_sqr z) as Z. unfold Rsqr in *.
  destruct (Req_dec x 0) as [->|N].
  - destruct (Req_dec y 0) as [->|N].
    + destruct (Req_dec z 0) as [->|N]; [exfalso; now apply H|]. pose proof (Rsqr_pos_lt z N). unfold Rsqr in *. lra.
    + pose proof (Rsqr_pos_lt y N). unfold Rsqr in *. lra.
  - pose proof (Rsqr_pos_lt x N). unfold Rsqr in *. lra.
Qed.
Lemma norm_pos a : a <> vzero -> 0 < norm a.
Proof. intros H. apply sqrt_lt_R0, vdot_pos, H. Qed.
Lemma norm_sq a : norm a * norm a = vdot a a.
Proof.
  apply sqrt_sqrt. destruct a as [vx0 vy0 vz0]. cbv [vdot vx vy vz]. pose proof (Rle_0_sqr vx0) as X. pose proof (Rle_0_sqr vy0) as Y. pose proof (Rle_0_sqr vz0) as Z. unfold Rsqr in *. lra.
Qed.
Lemma unit_scal a : a <> vzero -> a = vscal (norm a) (unit_of a).
Proof. intros H. apply norm_pos in H. destruct a as [vx0 vy0 vz0]. unfold unit_of, vscal. cbn [vx vy vz]. set (n := norm _) in *. f_equal; field; lra. Qed.
Lemma unit_unit a : a <> vzero -> isunit (unit_of a).
Proof.
  intros H. pose proof (norm_pos _ H) as P. pose proof (norm_sq a) as Q. unfold isunit, unit_of. destruct a as [vx0 vy0 vz0]. cbv [vdot vx vy vz] in *. set (n := norm _) in *.
  transitivity ((vx0 * vx0 + vy0 * vy0 + vz0 * vz0) / (n * n)); [field; lra|]. rewrite <- Q. field. lra.
Qed.
Lemma unit_perp a b : a <> vzero -> b <> vzero -> vdot a b = 0 -> vdot (unit_of a) (unit_of b) = 0.
Proof.
  intros Ha Hb E. apply norm_pos in Ha, Hb. unfold unit_of. destruct a as [vx0 vy0 vz0], b as [vx1 vy1 vz1]. cbv [vdot vx vy vz] in *. set (n := norm _) in *. set (n' := norm (V3 vx1 _ _)) in *.
  transitivity ((vx0 * vx1 + vy0 * vy1 + vz0 * vz1) / (n * n')); [field; lra|]. rewrite E. field. lra.
Qed.

(** rotations about one axis *)
Lemma rot_add u a b : isunit u -> mmul (rot_matrix a u) (rot_matrix b u) = rot_matrix (a + b) u.
Proof.
  intros U. unfold isunit in U. unfold rot_matrix. rewrite cos_plus, sin_plus. set (c := cos a). set (s := sin a). set (c' := cos b). set (s' := sin b). clearbody c s c' s'.
  m3; nsatz.
Qed.
Lemma rot_0 u : rot_matrix 0 u = eye3.
Proof. unfold rot_matrix. rewrite cos_0, sin_0. m3; ring. Qed.
Lemma rot_2pi u : rot_matrix (2 * PI) u = eye3.
Proof. unfold rot_matrix. rewrite cos_2PI, sin_2PI. m3; ring. Qed.
Lemma rot_det u t : isunit u -> det (rot_matrix t u) = 1.
Proof.
  intros U. unfold isunit in U. unfold rot_matrix. pose proof (sin2_cos2 t) as E. unfold Rsqr in E. set (c := cos t) in *. set (s := sin t) in *. clearbody c s.
  m3; nsatz.
Qed.
Lemma rot_axis u t : isunit u -> mapply (rot_matrix t u) u = u.
Proof. intros U. unfold isunit in U. unfold rot_matrix. set (c := cos t). set (s := sin t). clearbody c s. m3; nsatz. Qed.
Lemma rot_trace u t : isunit u -> rot_matrix t u = eye3 -> cos t = 1.
Proof.
  intros U. unfold isunit in U. unfold rot_matrix. set (c := cos t). set (s := sin t). clearbody c s. intros E.
  m3. injection E. intros. nsatz.
Qed.
Lemma refl_sq u : isunit u -> mmul (refl_matrix u) (refl_matrix u) = eye3.
Proof. intros U. unfold isunit in U. m3; nsatz. Qed.
Lemma refl_det u : isunit u -> det (refl_matrix u) = -1.
Proof. intros U. unfold isunit in U. m3; nsatz. Qed.
Lemma refl_axis u : isunit u -> mapply (refl_matrix u) u = vscal (-1) u.
Proof. intros U. unfold isunit in U. m3; nsatz. Qed.
Lemma refl_perp u v : vdot u v = 0 -> mapply (refl_matrix u) v = v.
Proof. intros U. m3; nsatz. Qed.
Lemma refl_rot u t : isunit u -> mmul (refl_matrix u) (rot_matrix t u) = mmul (rot_matrix t u) (refl_matrix u).
Proof. intros U. unfold isunit in U. unfold rot_matrix. set (c := cos t). set (s := sin t). clearbody c s. m3; nsatz. Qed.
(** a second axis *)
Lemma rot_refl2 u u' t : isunit u -> isunit u' -> vdot u u' = 0 -> mmul (rot_matrix t u) (refl_matrix u') = mmul (refl_matrix u') (rot_matrix (- t) u).
Proof.
  intros U U' P. unfold isunit in *. unfold rot_matrix. rewrite cos_neg, sin_neg. set (c := cos t). set (s := sin t). clearbody c s. m3; nsatz.
Qed.
Lemma rot_pi u : rot_matrix PI u = mscal (-1) (refl_matrix u).
Proof. unfold rot_matrix. rewrite cos_PI, sin_PI. m3; ring. Qed.
Lemma refl_refl u u' : vdot u u' = 0 -> mmul (refl_matrix u) (refl_matrix u') = mmul (refl_matrix u') (refl_matrix u).
Proof. intros P. m3; nsatz. Qed.
Lemma mscal_mul_l c A B : mmul (mscal c A) B = mscal c (mmul A B).
Proof. m3; ring. Qed.
Lemma mscal_mul_r c A B : mmul A (mscal c B) = mscal c (mmul A B).
Proof. m3; ring. Qed.
Lemma mscal_mscal c d A : mscal c (mscal d A) = mscal (c * d) A.
Proof. m3; ring. Qed.
Lemma mscal_1 A : mscal 1 A = A.
Proof. m3; ring. Qed.
