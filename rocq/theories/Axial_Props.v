(** C89: the predefined point groups are groups, with the right number of different elements. *)
From Coq Require Import List ZArith QArith Qreals Reals Lra Lia.
From Verif Require Import Base Axial_Model Axial_Spec Axial_Grp Axial_Fam Axial_Proofs Axial_Planar Axial_Cubic Axial_Diamond.
Import ListNotations.
Open Scope R_scope.

(** rotation(angle, axis) is the right-handed rotation by [angle] degrees, reflection(axis) the reflection across the plane perpendicular to the axis. *)
Theorem C89_operations : forall angle axis, axis <> vzero ->
  is_rotation (angle * PI / 180) axis (act (rotation angle axis)) /\
  is_reflection axis (act (reflection axis)) /\
  (forall x, act (rotoreflection angle axis) x = act (reflection axis) (act (rotation angle axis) x)) /\
  (forall x, act inversion x = vscal (-1) x).
Proof. exact (fun angle axis H => conj (rotation_ok angle axis H) (conj (reflection_ok axis H) (conj (rotoreflection_ok angle axis) inversion_ok))). Qed.
Print Assumptions C89_operations.

(** The product of two elements is the composition of their maps, translations included; the product of two groups holds the products of their elements, in order. *)
Theorem C89_product : (forall a b x, act (prod_elem a b) x = act a (act b x)) /\
  (forall A B e, In e (prod_group A B) <-> exists a b, In a A /\ In b B /\ e = prod_elem a b) /\
  (forall A B, length (prod_group A B) = (length A * length B)%nat) /\
  (forall a b x, act2 (prod2 a b) x = act2 a (act2 b x)).
Proof. exact (conj prod_act (conj prod_group_in (conj prod_group_len prod_act2))). Qed.
Print Assumptions C89_product.

(** C(n, axis) *)
Theorem C89_C : forall n axis, (1 <= n)%Z -> axis <> vzero ->
  finite_group act eq (C n axis) /\ length (C n axis) = Z.to_nat n /\ generated_by act eq [rotation (360 / IZR n) axis] (C n axis).
Proof. exact (fun n axis Hn Hx => family_group _ _ _ (C_family n axis Hn Hx)). Qed.
Print Assumptions C89_C.

(** Ch(n, axis) *)
Theorem C89_Ch : forall n axis, (1 <= n)%Z -> axis <> vzero ->
  finite_group act eq (Ch n axis) /\ length (Ch n axis) = (2 * Z.to_nat n)%nat /\
  generated_by act eq [reflection axis; rotation (360 / IZR n) axis] (Ch n axis).
Proof. exact (fun n axis Hn Hx => family_group _ _ _ (Ch_family n axis Hn Hx)). Qed.
Print Assumptions C89_Ch.

(** Cv(n, axis, axis2) *)
Theorem C89_Cv : forall n axis axis2, (1 <= n)%Z -> axis <> vzero -> axis2 <> vzero -> vdot axis axis2 = 0 ->
  exists l, Cv n axis axis2 = Ok l /\ finite_group act eq l /\ length l = (2 * Z.to_nat n)%nat /\
  generated_by act eq [reflection axis2; rotation (360 / IZR n) axis] l.
Proof. exact (fun n axis axis2 Hn Hx Hy E => match Cv_family n axis axis2 Hn Hx Hy E with ex_intro _ l (conj A B) => ex_intro _ l (conj A (family_group _ _ _ B)) end). Qed.
Print Assumptions C89_Cv.

(** S(n, axis): n elements if n is even, 2 n if it is odd; the powers of one rotoreflection *)
Theorem C89_S : forall n axis, (1 <= n)%Z -> axis <> vzero ->
  finite_group act eq (S_ n axis) /\ length (S_ n axis) = (if Z.even n then Z.to_nat n else (2 * Z.to_nat n)%nat) /\
  generated_by act eq [rotoreflection (360 / IZR n) axis] (S_ n axis).
Proof.
  exact (fun n axis Hn Hx => match Z.even n as b return (Z.even n = b -> finite_group act eq (S_ n axis) /\ length (S_ n axis) = (if b then Z.to_nat n else (2 * Z.to_nat n)%nat) /\ generated_by act eq [rotoreflection (360 / IZR n) axis] (S_ n axis)) with
    | true => fun E => family_group _ _ _ (S_family n axis Hn Hx (even_mod n E))
    | false => fun E => family_group _ _ _ (S_odd_family n axis Hn Hx (odd_mod n E)) end eq_refl).
Qed.
Print Assumptions C89_S.

(** D(n, axis, axis2) *)
Theorem C89_D : forall n axis axis2, (1 <= n)%Z -> axis <> vzero -> axis2 <> vzero -> vdot axis axis2 = 0 ->
  exists l, D n axis axis2 = Ok l /\ finite_group act eq l /\ length l = (2 * Z.to_nat n)%nat /\
  generated_by act eq [rotation 180 axis2; rotation (360 / IZR n) axis] l.
Proof. exact (fun n axis axis2 Hn Hx Hy E => ex_intro _ _ (conj (D_eq n axis axis2 E) (family_group _ _ _ (D_family n axis axis2 Hn Hx Hy E)))). Qed.
Print Assumptions C89_D.

(** Dh(n, axis, axis2) *)
Theorem C89_Dh : forall n axis axis2, (1 <= n)%Z -> axis <> vzero -> axis2 <> vzero -> vdot axis axis2 = 0 ->
  exists l, Dh n axis axis2 = Ok l /\ finite_group act eq l /\ length l = (4 * Z.to_nat n)%nat /\
  generated_by act eq [reflection axis; rotation 180 axis2; rotation (360 / IZR n) axis] l.
Proof. exact (fun n axis axis2 Hn Hx Hy E => match Dh_family n axis axis2 Hn Hx Hy E with ex_intro _ l (conj A B) => ex_intro _ l (conj A (family_group _ _ _ B)) end). Qed.
Print Assumptions C89_Dh.

(** Dd(n, axis, axis2) *)
Theorem C89_Dd : forall n axis axis2, (1 <= n)%Z -> axis <> vzero -> axis2 <> vzero -> vdot axis axis2 = 0 ->
  exists l, Dd n axis axis2 = Ok l /\ finite_group act eq l /\ length l = (4 * Z.to_nat n)%nat /\
  generated_by act eq [reflection axis2; rotoreflection (360 / IZR (2 * n)) axis] l.
Proof. exact (fun n axis axis2 Hn Hx Hy E => match Dd_family n axis axis2 Hn Hx Hy E with ex_intro _ l (conj A B) => ex_intro _ l (conj A (family_group _ _ _ B)) end). Qed.
Print Assumptions C89_Dd.

(** Axes whose scalar product is larger than the tolerance are rejected. *)
Theorem C89_not_perpendicular : forall n a b o, 1 / 100000000 < Rabs (vdot a b) ->
  Cv n a b = Err AssertionError /\ D n a b = Err AssertionError /\ Dh n a b = Err AssertionError /\ Dd n a b = Err AssertionError /\ glide a b o = Err AssertionError.
Proof. exact (fun n a b o H => match perp_assert n a b H with conj A (conj B (conj C0 D0)) => conj A (conj B (conj C0 (conj D0 (glide_assert a b o H)))) end). Qed.
Print Assumptions C89_not_perpendicular.

(** The axes "need not be normalised": but for short axes the check accepts axes at 45 degrees, and the result is not a group. *)
Theorem C89_short_axes_refuted : exists axis axis2 l, axis <> vzero /\ axis2 <> vzero /\ vdot axis axis2 <> 0 /\ D 2 axis axis2 = Ok l /\ ~ finite_group act eq l.
Proof. exact (match short_axes with ex_intro _ l (conj A B) => ex_intro _ ax1 (ex_intro _ ax2 (ex_intro _ l (conj ax1_neq (conj ax2_neq (conj ax_dot_neq (conj A B)))))) end). Qed.
Print Assumptions C89_short_axes_refuted.

(** screw_group: for an angle of p/q turns in lowest terms, the loop ends after q rounds; element i turns by i times the angle about the axis through the
    origin given and moves by i times the translation; the elements form a group up to multiples of q times the translation. *)
Theorem C89_screw : forall (p : Z) (q : positive) (angle : Q) trans origin fuel,
  trans <> vzero -> Z.gcd p (Zpos q) = 1%Z -> (Zpos q < 100000000)%Z -> (angle == 360 * (p # q))%Q -> (Pos.to_nat q <= fuel)%nat ->
  exists l, screw_group fuel angle trans origin = Some l /\ length l = Pos.to_nat q /\ finite_group act (mod_trans (vscal (IZR (Zpos q)) trans)) l /\
  (forall i, (i < Pos.to_nat q)%nat -> exists e, nth_error l i = Some e /\
    forall x, act e x = vadd (vscal (INR i) trans) (vadd origin (mapply (rot_matrix (INR i * radians (Q2R angle)) (unit_of trans)) (vsub x origin)))).
Proof. exact (fun p q angle trans origin fuel Ht G Q A F => screw_ok p q trans origin Ht G Q angle A fuel F). Qed.
Print Assumptions C89_screw.

(** glide: a reflection through the origin given and a translation along the plane; twice it is twice the translation. *)
Theorem C89_glide : forall axis trans origin, axis <> vzero -> vdot axis trans = 0 ->
  exists g, glide axis trans origin = Ok g /\ glide_group axis trans origin = Ok [EId; g] /\
  (forall x, act g x = vadd trans (vadd origin (act (reflection axis) (vsub x origin)))) /\
  (forall x, act g (act g x) = vadd x (vscal 2 trans)) /\ finite_group act (mod_trans (vscal 2 trans)) [EId; g].
Proof. exact glide_ok. Qed.
Print Assumptions C89_glide.

(** planar.py: rotation, reflection, C and D *)
Theorem C89_planar_operations : forall angle,
  is_rotation2 (angle * PI / 180) (act2 (protation angle)) /\ is_reflection2 (angle * PI / 180) (act2 (preflection angle)).
Proof. exact (fun angle => conj (protation_ok angle) (preflection_ok angle)). Qed.
Print Assumptions C89_planar_operations.
Theorem C89_planar_C : forall n, (1 <= n)%Z ->
  finite_group act2 eq (pC n) /\ length (pC n) = Z.to_nat n /\ generated_by act2 eq [protation (360 / IZR n)] (pC n).
Proof. exact (fun n Hn => family_group2 _ _ _ (pC_family n Hn)). Qed.
Print Assumptions C89_planar_C.
Theorem C89_planar_D : forall n axis, (1 <= n)%Z ->
  finite_group act2 eq (pD n axis) /\ length (pD n axis) = (2 * Z.to_nat n)%nat /\ generated_by act2 eq [preflection axis; protation (360 / IZR n)] (pD n axis).
Proof. exact (fun n axis Hn => family_group2 _ _ _ (pD_family n Hn axis)). Qed.
Print Assumptions C89_planar_D.
(** [phi] is the direction of the translation (numpy's arctan2) and [r] its length; the point at distance [a] along the axis and [b] off it goes to [a + r] and [-b] *)
Theorem C89_planar_glide : forall phi r trans origin, trans = V2 (r * cos phi) (r * sin phi) ->
  let g := pglide phi trans origin in
  pglide_group phi trans origin = [PId; g] /\
  (forall a b, act2 g (add2 origin (V2 (a * cos phi - b * sin phi) (a * sin phi + b * cos phi))) = add2 origin (V2 ((a + r) * cos phi + b * sin phi) ((a + r) * sin phi - b * cos phi))) /\
  (forall x, act2 g (act2 g x) = add2 x (V2 (2 * px trans) (2 * py trans))) /\
  finite_group act2 (mod_trans2 (V2 (2 * px trans) (2 * py trans))) [PId; g].
Proof. exact pglide_ok. Qed.
Print Assumptions C89_planar_glide.

(** cubic.py: the groups of the tetrahedron, the cube and the pyritohedron *)
Theorem C89_cubic_groups :
  (finite_group act eq T_ /\ length T_ = 12%nat) /\ (finite_group act eq Td /\ length Td = 24%nat) /\ (finite_group act eq Th /\ length Th = 24%nat) /\
  (finite_group act eq O_ /\ length O_ = 24%nat) /\ (finite_group act eq Oh /\ length Oh = 48%nat).
Proof. exact (conj T_group (conj Td_group (conj Th_group (conj O_group Oh_group)))). Qed.
Print Assumptions C89_cubic_groups.
Theorem C89_cubic_symmetries :
  exactly T_ (fun W => isometry W /\ maps_set tetra_vertex W /\ det W = 1) /\
  exactly Td (fun W => isometry W /\ maps_set tetra_vertex W) /\
  exactly Th (fun W => isometry W /\ maps_set pyrito_vertex W) /\
  exactly O_ (fun W => isometry W /\ maps_set cube_vertex W /\ det W = 1) /\
  exactly Oh (fun W => isometry W /\ maps_set cube_vertex W).
Proof. exact (conj T_exact (conj Td_exact (conj Th_exact (conj O_exact Oh_exact)))). Qed.
Print Assumptions C89_cubic_symmetries.
(** Fd3m: a group of 48 elements up to vectors of the face-centred cubic lattice *)
Theorem C89_Fd3m : finite_group act mod_fcc Fd3m /\ length Fd3m = 48%nat.
Proof. exact Fd3m_group. Qed.
Print Assumptions C89_Fd3m.

(** Examples: the hypotheses hold for the default axes, for axes that are not normalised, and for the screws 4_1 and 6_3. *)
Example C89_ex_default : V3 0 0 1 <> vzero /\ V3 1 0 0 <> vzero /\ vdot (V3 0 0 1) (V3 1 0 0) = 0.
Proof. split; [intros E; injection E; lra|]. split; [intros E; injection E; lra|]. cbv [vdot vx vy vz]. lra. Qed.
Example C89_ex_long : V3 1 1 1 <> vzero /\ V3 3 (-3) 0 <> vzero /\ vdot (V3 1 1 1) (V3 3 (-3) 0) = 0.
Proof. split; [intros E; injection E; lra|]. split; [intros E; injection E; lra|]. cbv [vdot vx vy vz]. lra. Qed.
Example C89_ex_screw : Z.gcd 1 4 = 1%Z /\ (90 == 360 * (1 # 4))%Q /\ (180 == 360 * (1 # 2))%Q /\ ((-120) == 360 * (-1 # 3))%Q.
Proof. vm_compute. auto. Qed.
