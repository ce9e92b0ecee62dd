(** The cubic groups (for C89). *)
From Coq Require Import List Arith Bool ZArith QArith Qreals Reals Lra Lia.
From Verif Require Import Base Axial_Model Axial_Spec Axial_Alg Axial_Rot Axial_Grp Axial_Fam.
Import ListNotations.
Open Scope R_scope.

(** ** integer matrices *)
Record zm := Zm { z11 : Z; z12 : Z; z13 : Z; z21 : Z; z22 : Z; z23 : Z; z31 : Z; z32 : Z; z33 : Z }.
Record zv := Zv { zx : Z; zy : Z; zz : Z }.
Definition emb (A : zm) : m3 := M3 (IZR (z11 A)) (IZR (z12 A)) (IZR (z13 A)) (IZR (z21 A)) (IZR (z22 A)) (IZR (z23 A)) (IZR (z31 A)) (IZR (z32 A)) (IZR (z33 A)).
Definition embv (v : zv) : v3 := V3 (IZR (zx v)) (IZR (zy v)) (IZR (zz v)).
Definition zmul (A B : zm) : zm :=
  Zm (z11 A * z11 B + z12 A * z21 B + z13 A * z31 B) (z11 A * z12 B + z12 A * z22 B + z13 A * z32 B) (z11 A * z13 B + z12 A * z23 B + z13 A * z33 B)
     (z21 A * z11 B + z22 A * z21 B + z23 A * z31 B) (z21 A * z12 B + z22 A * z22 B + z23 A * z32 B) (z21 A * z13 B + z22 A * z23 B + z23 A * z33 B)
     (z31 A * z11 B + z32 A * z21 B + z33 A * z31 B) (z31 A * z12 B + z32 A * z22 B + z33 A * z32 B) (z31 A * z13 B + z32 A * z23 B + z33 A * z33 B).
Definition zapp (A : zm) (v : zv) : zv :=
  Zv (z11 A * zx v + z12 A * zy v + z13 A * zz v) (z21 A * zx v + z22 A * zy v + z23 A * zz v) (z31 A * zx v + z32 A * zy v + z33 A * zz v).
Definition zdiag (d : Z) : zm := Zm d 0 0 0 d 0 0 0 d.
Definition ztr (A : zm) : zm := Zm (z11 A) (z21 A) (z31 A) (z12 A) (z22 A) (z32 A) (z13 A) (z23 A) (z33 A).
Definition zscal (d : Z) (A : zm) : zm := Zm (d * z11 A) (d * z12 A) (d * z13 A) (d * z21 A) (d * z22 A) (d * z23 A) (d * z31 A) (d * z32 A) (d * z33 A).
Definition zdet (A : zm) : Z := z11 A * (z22 A * z33 A - z23 A * z32 A) - z12 A * (z21 A * z33 A - z23 A * z31 A) + z13 A * (z21 A * z32 A - z22 A * z31 A).
Definition zmeqb (A B : zm) : bool :=
  (z11 A =? z11 B)%Z && (z12 A =? z12 B)%Z && (z13 A =? z13 B)%Z && (z21 A =? z21 B)%Z && (z22 A =? z22 B)%Z && (z23 A =? z23 B)%Z && (z31 A =? z31 B)%Z && (z32 A =? z32 B)%Z && (z33 A =? z33 B)%Z.
Definition zveqb (a b : zv) : bool := (zx a =? zx b)%Z && (zy a =? zy b)%Z && (zz a =? zz b)%Z.
Lemma zmeqb_eq A B : zmeqb A B = true <-> A = B.
Proof.
  unfold zmeqb. rewrite !andb_true_iff, !Z.eqb_eq. split; [|intros ->; tauto]. destruct A, B. cbn. intros. f_equal; tauto.
Qed.
Lemma zveqb_eq a b : zveqb a b = true <-> a = b.
Proof. unfold zveqb. rewrite !andb_true_iff, !Z.eqb_eq. split; [|intros ->; tauto]. destruct a, b. cbn. intros. f_equal; tauto. Qed.
Lemma emb_mul A B : mmul (emb A) (emb B) = emb (zmul A B).
Proof. destruct A, B. unfold emb, mmul, zmul. cbn [m11 m12 m13 m21 m22 m23 m31 m32 m33 z11 z12 z13 z21 z22 z23 z31 z32 z33]. now rewrite !plus_IZR, !mult_IZR. Qed.
Lemma emb_app A v : mapply (emb A) (embv v) = embv (zapp A v).
Proof. destruct A, v. unfold emb, embv, mapply, zapp. cbn [m11 m12 m13 m21 m22 m23 m31 m32 m33 z11 z12 z13 z21 z22 z23 z31 z32 z33 zx zy zz vx vy vz]. now rewrite !plus_IZR, !mult_IZR. Qed.
Lemma emb_det A : det (emb A) = IZR (zdet A).
Proof. destruct A. unfold emb, det, zdet. cbn [m11 m12 m13 m21 m22 m23 m31 m32 m33 z11 z12 z13 z21 z22 z23 z31 z32 z33]. rewrite !plus_IZR, !minus_IZR, !mult_IZR, !minus_IZR, !mult_IZR. reflexivity. Qed.
Lemma emb_inj A B : emb A = emb B -> A = B.
Proof. destruct A, B. unfold emb. cbn. intros E. injection E. intros. f_equal; now apply eq_IZR. Qed.
Lemma embv_inj A B : embv A = embv B -> A = B.
Proof. destruct A, B. unfold embv. cbn. intros E. injection E. intros. f_equal; now apply eq_IZR. Qed.
Lemma emb_1 : emb (zdiag 1) = eye3.
Proof. reflexivity. Qed.

(** ** checking a group of integer matrices *)
Definition inb (A : zm) (l : list zm) : bool := existsb (zmeqb A) l.
Lemma inb_in A l : inb A l = true <-> In A l.
Proof. unfold inb. rewrite existsb_exists. split; [intros (B & H & E); apply zmeqb_eq in E; now subst|intros H; exists A; split; [exact H|now apply zmeqb_eq]]. Qed.
Fixpoint nodupb (l : list zm) : bool := match l with [] => true | A :: l => negb (inb A l) && nodupb l end.
Lemma nodupb_ok l : nodupb l = true -> NoDup l.
Proof.
  induction l as [|A l IH]; cbn; [constructor|]. rewrite andb_true_iff, negb_true_iff. intros [H H']. constructor; [|auto]. intros X. apply inb_in in X. congruence.
Qed.
Definition groupb (l : list zm) : bool :=
  inb (zdiag 1) l && forallb (fun a => forallb (fun b => inb (zmul a b) l) l) l &&
  forallb (fun a => existsb (fun b => zmeqb (zmul a b) (zdiag 1) && zmeqb (zmul b a) (zdiag 1)) l) l && nodupb l.
Lemma groupb_ok l : groupb l = true -> mgrp3 (map emb l).
Proof.
  unfold groupb. rewrite !andb_true_iff. intros [[[O C] I] N]. constructor.
  - rewrite <- emb_1. apply in_map. now apply inb_in.
  - intros a b Ha Hb. apply in_map_iff in Ha, Hb. destruct Ha as (A & <- & HA), Hb as (B & <- & HB). rewrite emb_mul. apply in_map, inb_in.
    rewrite forallb_forall in C. specialize (C A HA). rewrite forallb_forall in C. exact (C B HB).
  - intros a Ha. apply in_map_iff in Ha. destruct Ha as (A & <- & HA). rewrite forallb_forall in I. specialize (I A HA). apply existsb_exists in I. destruct I as (B & HB & E).
    rewrite andb_true_iff, !zmeqb_eq in E. destruct E as [E E']. exists (emb B). split; [now apply in_map|]. rewrite !emb_mul, E, E'. split; reflexivity.
  - apply FinFun.Injective_map_NoDup; [exact emb_inj|now apply nodupb_ok].
Qed.

(** ** the rotations of the tetrahedron *)
Definition half (t : Z) (i j k : Z) : zm :=
  (* -1/2 + t/2 K + 1/2 u u^T *)
  let f x := Z.div x 2 in
  Zm 0 (f (i * j - t * k)%Z) (f (i * k + t * j)%Z) (f (i * j + t * k)%Z) 0 (f (j * k - t * i)%Z) (f (i * k - t * j)%Z) (f (j * k + t * i)%Z) 0.
Definition Tz : list zm :=
  [zdiag 1; half 1 1 1 1; half 1 1 (-1) (-1); half 1 (-1) 1 (-1); half 1 (-1) (-1) 1;
   half (-1) 1 1 1; half (-1) 1 (-1) (-1); half (-1) (-1) 1 (-1); half (-1) (-1) (-1) 1;
   Zm (-1) 0 0 0 (-1) 0 0 0 1; Zm (-1) 0 0 0 1 0 0 0 (-1); Zm 1 0 0 0 (-1) 0 0 0 (-1)].
Lemma norm_3 i j k : i * i = 1 -> j * j = 1 -> k * k = 1 -> norm (V3 i j k) = sqrt 3.
Proof. intros. unfold norm. f_equal. cbv [vdot vx vy vz]. lra. Qed.
Lemma cos_120 : cos (radians 120) = - 1 / 2.
Proof. unfold radians. replace (120 * PI / 180) with (2 * (PI / 3)) by field. exact cos_2PI3. Qed.
Lemma sin_120 : sin (radians 120) = sqrt 3 / 2.
Proof. unfold radians. replace (120 * PI / 180) with (2 * (PI / 3)) by field. exact sin_2PI3. Qed.
Lemma radians_neg d : radians (- d) = - radians d.
Proof. unfold radians. field. Qed.
Lemma rot_120 t i j k : i * i = 1 -> j * j = 1 -> k * k = 1 -> t = 1 \/ t = -1 ->
  rot_matrix (radians (t * 120)) (unit_of (V3 i j k)) = M3 0 ((i * j - t * k) / 2) ((i * k + t * j) / 2) ((i * j + t * k) / 2) 0 ((j * k - t * i) / 2) ((i * k - t * j) / 2) ((j * k + t * i) / 2) 0.
Proof.
  intros Hi Hj Hk Ht. assert (P : 0 < sqrt 3) by (apply sqrt_lt_R0; lra). assert (Q : sqrt 3 * sqrt 3 = 3) by (apply sqrt_sqrt; lra).
  unfold unit_of. rewrite norm_3 by assumption. cbn [vx vy vz].
  assert (Cc : cos (radians (t * 120)) = -1 / 2). { destruct Ht as [->| ->]; [rewrite Rmult_1_l; apply cos_120|]. replace (-1 * 120) with (- (120)) by ring. rewrite radians_neg, cos_neg. apply cos_120. }
  assert (Sc : sin (radians (t * 120)) = t * (sqrt 3 / 2)). { destruct Ht as [->| ->]; [rewrite !Rmult_1_l; apply sin_120|]. replace (-1 * 120) with (- (120)) by ring. rewrite radians_neg, sin_neg, sin_120. ring. }
  unfold rot_matrix. rewrite Cc, Sc. set (r := sqrt 3) in *. clearbody r. clear Cc Sc Ht.
  assert (X : forall a b, a / r * (b / r) = a * b / 3). { intros a b. rewrite <- Q. field. lra. }
  assert (Y : forall a, t * (r / 2) * (a / r) = t * a / 2). { intros a. field. lra. }
  assert (Y' : forall a, t * (r / 2) * - (a / r) = - (t * a / 2)). { intros a. field. lra. }
  cbv [outer cross_eye madd mscal eye3 m11 m12 m13 m21 m22 m23 m31 m32 m33 vx vy vz]. rewrite !X, !Y, !Y', Hi, Hj, Hk. f_equal; field.
Qed.
Lemma norm_1 x y z : x * x + y * y + z * z = 1 -> unit_of (V3 x y z) = V3 x y z.
Proof. intros H. assert (N : norm (V3 x y z) = 1). { unfold norm, vdot. cbn. rewrite H. apply sqrt_1. } unfold unit_of. rewrite N. cbn. f_equal; field. Qed.
Lemma rot120_emb t i j k : (i = 1 \/ i = -1)%Z -> (j = 1 \/ j = -1)%Z -> (k = 1 \/ k = -1)%Z -> (t = 1 \/ t = -1)%Z ->
  rep (rotation (IZR t * 120) (V3 (IZR i) (IZR j) (IZR k))) = emb (half t i j k).
Proof.
  intros Hi Hj Hk Ht. cbn [rep rotation pure s_W]. rewrite rot_120.
  - destruct Hi as [->| ->], Hj as [->| ->], Hk as [->| ->], Ht as [->| ->]; unfold emb, half; cbn; f_equal; lra.
  - destruct Hi as [->| ->]; lra.
  - destruct Hj as [->| ->]; lra.
  - destruct Hk as [->| ->]; lra.
  - destruct Ht as [->| ->]; auto.
Qed.
Lemma T_pure : Forall ispure T_.
Proof. repeat constructor. Qed.
Lemma T_rep : map rep T_ = map emb Tz.
Proof.
  unfold T_, Tz. cbn [map].
  assert (X : forall i j k, (i = 1 \/ i = -1)%Z -> (j = 1 \/ j = -1)%Z -> (k = 1 \/ k = -1)%Z -> rep (rotation 120 (V3 (IZR i) (IZR j) (IZR k))) = emb (half 1 i j k)).
  { intros i j k Hi Hj Hk. rewrite <- rot120_emb by auto. now rewrite Rmult_1_l. }
  assert (Y : forall i j k, (i = 1 \/ i = -1)%Z -> (j = 1 \/ j = -1)%Z -> (k = 1 \/ k = -1)%Z -> rep (rotation (-120) (V3 (IZR i) (IZR j) (IZR k))) = emb (half (-1) i j k)).
  { intros i j k Hi Hj Hk. rewrite <- rot120_emb by auto. now replace (-1 * 120) with (-120) by ring. }
  rewrite !(X 1%Z 1%Z 1%Z), !(X 1%Z (-1)%Z (-1)%Z), !(X (-1)%Z 1%Z (-1)%Z), !(X (-1)%Z (-1)%Z 1%Z), !(Y 1%Z 1%Z 1%Z), !(Y 1%Z (-1)%Z (-1)%Z), !(Y (-1)%Z 1%Z (-1)%Z), !(Y (-1)%Z (-1)%Z 1%Z) by auto.
  assert (R1 : mscal (-1) (refl_matrix (V3 0 0 1)) = emb (Zm (-1) 0 0 0 (-1) 0 0 0 1)) by (unfold emb; cbn [z11 z12 z13 z21 z22 z23 z31 z32 z33]; m3; lra).
  assert (R2 : mscal (-1) (refl_matrix (V3 0 1 0)) = emb (Zm (-1) 0 0 0 1 0 0 0 (-1))) by (unfold emb; cbn [z11 z12 z13 z21 z22 z23 z31 z32 z33]; m3; lra).
  assert (R3 : mscal (-1) (refl_matrix (V3 1 0 0)) = emb (Zm 1 0 0 0 (-1) 0 0 0 (-1))) by (unfold emb; cbn [z11 z12 z13 z21 z22 z23 z31 z32 z33]; m3; lra).
  rewrite !rot180, !norm_1, !rot_pi, R1, R2, R3 by lra. reflexivity.
Qed.
(** the other elements *)
Lemma refl110 : rep (reflection (V3 1 1 0)) = emb (Zm 0 (-1) 0 (-1) 0 0 0 0 1).
Proof.
  cbn [rep reflection pure s_W]. pose proof (norm_sq (V3 1 1 0)) as Q. pose proof (norm_pos (V3 1 1 0)) as P. unfold unit_of. set (r := norm _) in *. cbv [vdot vx vy vz] in Q |- *.
  assert (P' : 0 < r) by (apply P; intros E; injection E; lra). assert (Q' : r * r = 2) by lra. clearbody r.
  assert (X : forall a b, a / r * (b / r) = a * b / 2). { intros a b. rewrite <- Q'. field. lra. }
  unfold refl_matrix, outer, emb. cbv [msub madd mscal eye3 m11 m12 m13 m21 m22 m23 m31 m32 m33 z11 z12 z13 z21 z22 z23 z31 z32 z33 vx vy vz]. rewrite !X. f_equal; lra.
Qed.
Lemma inv_rep : rep inversion = emb (zdiag (-1)).
Proof. cbn [rep inversion pure s_W]. unfold emb, zdiag. cbn [z11 z12 z13 z21 z22 z23 z31 z32 z33]. m3; lra. Qed.
Lemma rot90_rep : rep (rotation 90 (V3 0 0 1)) = emb (Zm 0 (-1) 0 1 0 0 0 0 1).
Proof.
  cbn [rep rotation pure s_W]. rewrite norm_1 by lra. assert (E : radians 90 = PI / 2) by (unfold radians; field). rewrite E. unfold rot_matrix. rewrite cos_PI2, sin_PI2. unfold emb. cbn [z11 z12 z13 z21 z22 z23 z31 z32 z33]. m3; lra.
Qed.
Definition zext (A : zm) (l : list zm) : list zm := l ++ map (zmul A) l.
Lemma ext_rep a A H l : ispure a -> rep a = emb A -> Forall ispure H -> map rep H = map emb l -> Forall ispure (prod_group [EId; a] H) /\ map rep (prod_group [EId; a] H) = map emb (zext A l).
Proof.
  intros Pa Ea PH EH. destruct (prod2_rep a H Pa PH) as (P & R & _). split; [exact P|]. rewrite R, EH, Ea. unfold zext. rewrite map_app, !map_map. f_equal. apply map_ext. intros B. apply emb_mul.
Qed.
Definition Tdz := zext (Zm 0 (-1) 0 (-1) 0 0 0 0 1) Tz.
Definition Thz := zext (zdiag (-1)) Tz.
Definition Oz := zext (Zm 0 (-1) 0 1 0 0 0 0 1) Tz.
Definition Ohz := zext (zdiag (-1)) Oz.
Lemma Td_rep : Forall ispure Td /\ map rep Td = map emb Tdz.
Proof. apply ext_rep; [reflexivity|exact refl110|exact T_pure|exact T_rep]. Qed.
Lemma Th_rep : Forall ispure Th /\ map rep Th = map emb Thz.
Proof. apply ext_rep; [reflexivity|exact inv_rep|exact T_pure|exact T_rep]. Qed.
Lemma O_rep : Forall ispure O_ /\ map rep O_ = map emb Oz.
Proof. apply ext_rep; [reflexivity|exact rot90_rep|exact T_pure|exact T_rep]. Qed.
Lemma Oh_rep : Forall ispure Oh /\ map rep Oh = map emb Ohz.
Proof. apply ext_rep; [reflexivity|exact inv_rep|apply O_rep|apply O_rep]. Qed.
Lemma group_check L l : Forall ispure L -> map rep L = map emb l -> hd_error L = Some EId -> groupb l = true -> finite_group act eq L /\ length L = length l.
Proof.
  intros P R Hd G. split; [apply lift; [exact P|exact Hd|rewrite R; now apply groupb_ok]|]. rewrite <- (map_length rep), R. apply map_length.
Qed.
Lemma T_group : finite_group act eq T_ /\ length T_ = 12%nat.
Proof. apply (group_check T_ Tz); [exact T_pure|exact T_rep|reflexivity|vm_compute; reflexivity]. Qed.
Lemma Td_group : finite_group act eq Td /\ length Td = 24%nat.
Proof. apply (group_check Td Tdz); [apply Td_rep|apply Td_rep|reflexivity|vm_compute; reflexivity]. Qed.
Lemma Th_group : finite_group act eq Th /\ length Th = 24%nat.
Proof. apply (group_check Th Thz); [apply Th_rep|apply Th_rep|reflexivity|vm_compute; reflexivity]. Qed.
Lemma O_group : finite_group act eq O_ /\ length O_ = 24%nat.
Proof. apply (group_check O_ Oz); [apply O_rep|apply O_rep|reflexivity|vm_compute; reflexivity]. Qed.
Lemma Oh_group : finite_group act eq Oh /\ length Oh = 48%nat.
Proof. apply (group_check Oh Ohz); [apply Oh_rep|apply Oh_rep|reflexivity|vm_compute; reflexivity]. Qed.

(** ** symmetries of a set of points *)
Definition inv_ (v : zv) (l : list zv) : bool := existsb (zveqb v) l.
Lemma inv_in v l : inv_ v l = true <-> In v l.
Proof. unfold inv_. rewrite existsb_exists. split; [intros (B & H & E); apply zveqb_eq in E; now subst|intros H; exists v; split; [exact H|now apply zveqb_eq]]. Qed.
Definition cols (a b c : zv) : zm := Zm (zx a) (zx b) (zx c) (zy a) (zy b) (zy c) (zz a) (zz b) (zz c).
Definition zadj (A : zm) : zm :=
  Zm (z22 A * z33 A - z23 A * z32 A) (z13 A * z32 A - z12 A * z33 A) (z12 A * z23 A - z13 A * z22 A)
     (z23 A * z31 A - z21 A * z33 A) (z11 A * z33 A - z13 A * z31 A) (z13 A * z21 A - z11 A * z23 A)
     (z21 A * z32 A - z22 A * z31 A) (z12 A * z31 A - z11 A * z32 A) (z11 A * z22 A - z12 A * z21 A).
Ltac em := unfold emb, cols, mapply, embv, ztr, zscal, mscal, mmul in *; cbn [z11 z12 z13 z21 z22 z23 z31 z32 z33 zx zy zz vx vy vz m11 m12 m13 m21 m22 m23 m31 m32 m33] in *.
Lemma adj_ok A : mmul (emb A) (emb (zadj A)) = mscal (IZR (zdet A)) eye3.
Proof.
  rewrite emb_mul. destruct A as [a b c d e f g h i]. unfold emb, zmul, zadj, zdet. cbn [z11 z12 z13 z21 z22 z23 z31 z32 z33]. cbv [mscal eye3 m11 m12 m13 m21 m22 m23 m31 m32 m33].
  rewrite !Rmult_1_r, !Rmult_0_r. f_equal; f_equal; ring.
Qed.
Definition zvscal (d : Z) (v : zv) : zv := Zv (d * zx v) (d * zy v) (d * zz v).
Definition check_l (udet : bool) (verts : list zv) (l : list zm) : bool :=
  forallb (fun g => zmeqb (zmul (ztr g) g) (zdiag 1) && forallb (fun v => inv_ (zapp g v) verts) verts && implb udet (zdet g =? 1)%Z) l.
Definition check_r (udet : bool) (verts : list zv) (a b c : zv) (l : list zm) : bool :=
  let A := cols a b c in let d := zdet A in
  forallb (fun x => forallb (fun y => forallb (fun z =>
    let Z0 := zmul (cols x y z) (zadj A) in
    implb (zmeqb (zmul (ztr Z0) Z0) (zdiag (d * d)) && forallb (fun v => existsb (fun v' => zveqb (zapp Z0 v) (zvscal d v')) verts) verts && implb udet (zdet Z0 =? d * d * d)%Z) (existsb (fun g => zmeqb (zscal d g) Z0) l)) verts) verts) verts
  && inv_ a verts && inv_ b verts && inv_ c verts && negb (d =? 0)%Z.
Lemma isometry_tr W : isometry W -> mmul (M3 (m11 W) (m21 W) (m31 W) (m12 W) (m22 W) (m32 W) (m13 W) (m23 W) (m33 W)) W = eye3.
Proof.
  intros H. pose proof (fun a b => H a b) as X. unfold isometry in X.
  pose proof (X (V3 1 0 0) (V3 1 0 0)). pose proof (X (V3 1 0 0) (V3 0 1 0)). pose proof (X (V3 1 0 0) (V3 0 0 1)).
  pose proof (X (V3 0 1 0) (V3 0 1 0)). pose proof (X (V3 0 1 0) (V3 0 0 1)). pose proof (X (V3 0 0 1) (V3 0 0 1)). clear X H.
  m3; lra.
Qed.
Lemma tr_isometry g : zmul (ztr g) g = zdiag 1 -> isometry (emb g).
Proof.
  intros E x y. apply (f_equal emb) in E. rewrite <- emb_mul, emb_1 in E.
  assert (X : vdot (mapply (emb g) x) (mapply (emb g) y) = vdot x (mapply (mmul (emb (ztr g)) (emb g)) y)).
  { clear E. destruct g. unfold emb, ztr. cbn [z11 z12 z13 z21 z22 z23 z31 z32 z33]. m3; ring. }
  rewrite X, E, mapply_1. reflexivity.
Qed.
Definition sym_of (udet : bool) (P : v3 -> Prop) (W : m3) : Prop := isometry W /\ maps_set P W /\ (udet = true -> det W = 1).
Lemma exact_check udet P verts a b c L l : (forall v, P v <-> exists z, In z verts /\ v = embv z) -> Forall ispure L -> map rep L = map emb l ->
  check_l udet verts l = true -> check_r udet verts a b c l = true -> exactly L (sym_of udet P).
Proof.
  intros HP PL RL CL CR. rewrite Forall_forall in PL. split.
  - intros e He. pose proof (in_map rep _ _ He) as Hr. rewrite RL in Hr. apply in_map_iff in Hr. destruct Hr as (g & Eg & Hg). exists (emb g).
    unfold check_l in CL. rewrite forallb_forall in CL. specialize (CL g Hg). rewrite !andb_true_iff in CL. destruct CL as [[C1 C2] C3]. split.
    + split; [|split].
      * apply tr_isometry. now apply zmeqb_eq.
      * intros v Hv. apply HP in Hv. destruct Hv as (z & Hz & ->). rewrite emb_app. apply HP. exists (zapp g z). split; [|reflexivity]. rewrite forallb_forall in C2. apply inv_in, C2, Hz.
      * intros U. rewrite U in C3. cbn in C3. apply Z.eqb_eq in C3. rewrite emb_det, C3. reflexivity.
    + intros x. rewrite act_pure, <- Eg by auto. reflexivity.
  - intros W (I & M & U). unfold check_r in CR. set (A := cols a b c) in *. set (d := zdet A) in *. rewrite !andb_true_iff in CR. destruct CR as [[[[CR Ha] Hb] Hc] Hd].
    apply inv_in in Ha, Hb, Hc. rewrite negb_true_iff, Z.eqb_neq in Hd.
    assert (Im : forall z, In z verts -> exists z', In z' verts /\ mapply W (embv z) = embv z') by (intros z Hz; apply HP, M, HP; eauto).
    destruct (Im a Ha) as (x & Hx & Ex), (Im b Hb) as (y & Hy & Ey), (Im c Hc) as (z & Hz & Ez).
    rewrite forallb_forall in CR. specialize (CR x Hx). rewrite forallb_forall in CR. specialize (CR y Hy). rewrite forallb_forall in CR. specialize (CR z Hz). cbv zeta in CR.
    set (Z0 := zmul (cols x y z) (zadj A)) in *.
    assert (WA : mmul W (emb A) = emb (cols x y z)).
    { clear - Ex Ey Ez. destruct W. subst A. destruct a, b, c, x, y, z. em.
      injection Ex. injection Ey. injection Ez. intros. f_equal; assumption. }
    assert (WZ : emb Z0 = mscal (IZR d) W).
    { unfold Z0. rewrite <- emb_mul, <- WA, <- mmul_assoc, adj_ok. fold d. rewrite mscal_mul_r, mmul_1_r. reflexivity. }
    assert (T0 : zmul (ztr Z0) Z0 = zdiag (d * d)).
    { apply emb_inj. rewrite <- emb_mul. pose proof (isometry_tr W I) as IT. assert (X : emb (ztr Z0) = mscal (IZR d) (M3 (m11 W) (m21 W) (m31 W) (m12 W) (m22 W) (m32 W) (m13 W) (m23 W) (m33 W))).
      { clear - WZ. destruct W. em. injection WZ. intros. f_equal; assumption. }
      rewrite X, WZ, mscal_mul_l, mscal_mul_r, IT. unfold emb, zdiag. cbn [z11 z12 z13 z21 z22 z23 z31 z32 z33]. rewrite mult_IZR. clear. m3; ring. }
    assert (D0 : implb udet (zdet Z0 =? d * d * d)%Z = true).
    { destruct udet; [|reflexivity]. cbn. apply Z.eqb_eq, eq_IZR. rewrite <- emb_det, WZ, !mult_IZR. transitivity (IZR d * IZR d * IZR d * det W); [clear; m3; ring|]. rewrite U by reflexivity. ring. }
    assert (F0 : forallb (fun v => existsb (fun v' => zveqb (zapp Z0 v) (zvscal d v')) verts) verts = true).
    { apply forallb_forall. intros v Hv. apply existsb_exists. destruct (Im v Hv) as (v' & Hv' & Ev). exists v'. split; [exact Hv'|]. apply zveqb_eq, embv_inj. rewrite <- emb_app, WZ.
      transitivity (vscal (IZR d) (mapply W (embv v))); [clear; generalize (embv v); intros; m3; ring|]. rewrite Ev. unfold vscal, embv, zvscal. cbn [vx vy vz zx zy zz]. now rewrite !mult_IZR. }
    rewrite D0, andb_true_r, F0, andb_true_r, (proj2 (zmeqb_eq _ _) T0) in CR. cbn [implb] in CR. apply existsb_exists in CR. destruct CR as (g & Hg & E). apply zmeqb_eq in E.
    assert (GW : emb g = W).
    { apply (f_equal emb) in E. rewrite WZ in E. apply not_0_IZR in Hd. clear - E Hd. destruct g, W. em.
      rewrite !mult_IZR in E. injection E. intros. f_equal; eapply Rmult_eq_reg_l; eassumption. }
    pose proof (in_map emb _ _ Hg) as Hr. rewrite <- RL, GW in Hr. apply in_map_iff in Hr. destruct Hr as (e & Ee & He). exists e. split; [exact He|]. intros v. rewrite act_pure, Ee by auto. reflexivity.
Qed.
Definition cube : list zv := flat_map (fun x => flat_map (fun y => map (Zv x y) [1; -1]%Z) [1; -1]%Z) [1; -1]%Z.
Definition tetra : list zv := [Zv 1 1 1; Zv 1 (-1) (-1); Zv (-1) 1 (-1); Zv (-1) (-1) 1].
Definition pyrito : list zv := flat_map (fun s => flat_map (fun t => [Zv 0 s (2 * t); Zv (2 * t) 0 s; Zv s (2 * t) 0]) [1; -1]%Z) [1; -1]%Z.
Lemma point_in a b c l x y z : In (Zv a b c) l -> x = IZR a -> y = IZR b -> z = IZR c -> exists w, In w l /\ V3 x y z = embv w.
Proof. intros H -> -> ->. exists (Zv a b c). split; [exact H|reflexivity]. Qed.
Ltac pnt := match goal with |- exists w, In w ?l /\ V3 (IZR ?a) (IZR ?b) (IZR ?c) = embv w => apply (point_in a b c); [cbn; tauto|reflexivity..] end.
Lemma cube_ok v : cube_vertex v <-> exists z, In z cube /\ v = embv z.
Proof.
  unfold cube_vertex, pm. split.
  - destruct v as [x y z]. cbn [vx vy vz]. intros ([->| ->] & [->| ->] & [->| ->]); pnt.
  - intros (z & Hz & ->). cbn in Hz. repeat (destruct Hz as [<-|Hz]; [cbn; repeat split; auto|]). destruct Hz.
Qed.
Lemma tetra_ok v : tetra_vertex v <-> exists z, In z tetra /\ v = embv z.
Proof.
  unfold tetra_vertex, cube_vertex, pm. split.
  - destruct v as [x y z]. cbn [vx vy vz]. intros (([->| ->] & [->| ->] & [->| ->]) & E); try (exfalso; lra); pnt.
  - intros (z & Hz & ->). cbn in Hz. repeat (destruct Hz as [<-|Hz]; [cbn; split; [repeat split; auto|lra]|]). destruct Hz.
Qed.
Lemma pyrito_ok v : pyrito_vertex v <-> exists z, In z pyrito /\ v = embv z.
Proof.
  unfold pyrito_vertex, pm_. split.
  - destruct v as [x y z]. cbn [vx vy vz].
    intros [(-> & [->| ->] & [->| ->])|[([->| ->] & -> & [->| ->])|([->| ->] & [->| ->] & ->)]];
    [apply (point_in 0 1 2)|apply (point_in 0 1 (-2))|apply (point_in 0 (-1) 2)|apply (point_in 0 (-1) (-2))|apply (point_in 2 0 1)|apply (point_in 2 0 (-1))|apply (point_in (-2) 0 1)|apply (point_in (-2) 0 (-1))|apply (point_in 1 2 0)|apply (point_in 1 (-2) 0)|apply (point_in (-1) 2 0)|apply (point_in (-1) (-2) 0)];
    try lra; cbn; tauto.
  - intros (z & Hz & ->). cbn in Hz. repeat (destruct Hz as [<-|Hz]; [cbn; lra|]). destruct Hz.
Qed.
Lemma exact_ext L P Q : (forall W, P W <-> Q W) -> exactly L P -> exactly L Q.
Proof.
  intros H [A B]. split; [intros e He; destruct (A e He) as (W & X & Y); exists W; split; [now apply H|exact Y]|intros W HW; apply B; now apply H].
Qed.
Lemma Oh_exact : exactly Oh (fun W => isometry W /\ maps_set cube_vertex W).
Proof.
  apply (exact_ext _ (sym_of false cube_vertex)); [intros W; unfold sym_of; intuition discriminate|].
  apply (exact_check false cube_vertex cube (Zv 1 1 1) (Zv 1 (-1) (-1)) (Zv (-1) 1 (-1)) Oh Ohz); [exact cube_ok|apply Oh_rep|apply Oh_rep|vm_compute; reflexivity|vm_compute; reflexivity].
Qed.
Lemma O_exact : exactly O_ (fun W => isometry W /\ maps_set cube_vertex W /\ det W = 1).
Proof.
  apply (exact_ext _ (sym_of true cube_vertex)); [intros W; unfold sym_of; intuition|].
  apply (exact_check true cube_vertex cube (Zv 1 1 1) (Zv 1 (-1) (-1)) (Zv (-1) 1 (-1)) O_ Oz); [exact cube_ok|apply O_rep|apply O_rep|vm_compute; reflexivity|vm_compute; reflexivity].
Qed.
Lemma Td_exact : exactly Td (fun W => isometry W /\ maps_set tetra_vertex W).
Proof.
  apply (exact_ext _ (sym_of false tetra_vertex)); [intros W; unfold sym_of; intuition discriminate|].
  apply (exact_check false tetra_vertex tetra (Zv 1 1 1) (Zv 1 (-1) (-1)) (Zv (-1) 1 (-1)) Td Tdz); [exact tetra_ok|apply Td_rep|apply Td_rep|vm_compute; reflexivity|vm_compute; reflexivity].
Qed.
Lemma T_exact : exactly T_ (fun W => isometry W /\ maps_set tetra_vertex W /\ det W = 1).
Proof.
  apply (exact_ext _ (sym_of true tetra_vertex)); [intros W; unfold sym_of; intuition|].
  apply (exact_check true tetra_vertex tetra (Zv 1 1 1) (Zv 1 (-1) (-1)) (Zv (-1) 1 (-1)) T_ Tz); [exact tetra_ok|apply T_pure|apply T_rep|vm_compute; reflexivity|vm_compute; reflexivity].
Qed.
Lemma Th_exact : exactly Th (fun W => isometry W /\ maps_set pyrito_vertex W).
Proof.
  apply (exact_ext _ (sym_of false pyrito_vertex)); [intros W; unfold sym_of; intuition discriminate|].
  apply (exact_check false pyrito_vertex pyrito (Zv 0 1 2) (Zv 2 0 1) (Zv 1 2 0) Th Thz); [exact pyrito_ok|apply Th_rep|apply Th_rep|vm_compute; reflexivity|vm_compute; reflexivity].
Qed.
