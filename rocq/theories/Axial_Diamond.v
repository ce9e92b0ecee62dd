(** The group of the diamond structure (for C89). *)
From Coq Require Import List Arith Bool ZArith QArith Qreals Reals Lra Lia.
From Verif Require Import Base Axial_Model Axial_Spec Axial_Alg Axial_Rot Axial_Grp Axial_Fam Axial_Cubic.
Import ListNotations.
Open Scope R_scope.

(** an element x -> A x + t / 4 (1, 1, 1) *)
Definition zact (e : zm * Z) (x : v3) : v3 := vadd (mapply (emb (fst e)) x) (vscal (IZR (snd e) / 4) (V3 1 1 1)).
Definition Fz : list (zm * Z) := map (fun A => (A, 0%Z)) Tdz ++ map (fun A => (zscal (-1) A, 1%Z)) Tdz.
Lemma F_rep : Forall2 (fun e z => forall x, act e x = zact z x) Fd3m Fz.
Proof.
  unfold Fd3m, Fz, prod_group, inversion_group. cbn [map change_origin inversion pure list_prod s_W]. rewrite app_nil_r, map_app, !map_map. cbn [fst snd prod_elem].
  destruct Td_rep as (P & R).
  assert (X : Forall2 (fun e A => ispure e /\ rep e = emb A) Td Tdz).
  { clear - P R. revert R. generalize Tdz. induction P as [|e l Pe P IH]; intros [|A z] R; try discriminate; constructor.
    - split; [exact Pe|]. cbn in R. congruence.
    - apply IH. cbn in R. congruence. }
  clear P R. apply Forall2_app.
  - induction X as [|e A l z [Pe Re] X IH]; cbn [map]; constructor; [|exact IH]. intros x. rewrite act_pure, Re by exact Pe. unfold zact. cbn [fst snd]. generalize (emb A). clear. intros M. m3; lra.
  - induction X as [|e A l z [Pe Re] X IH]; cbn [map]; constructor; [|exact IH]. intros x. unfold zact. cbn [fst snd].
    assert (Y : emb (zscal (-1) A) = mscal (-1) (emb A)) by (clear; destruct A; em; now rewrite !mult_IZR).
    rewrite Y. destruct e as [|[W w]]; cbn [rep s_W ispure s_w] in Pe, Re; cbn [act s_W s_w prod_sym]; rewrite <- Re.
    + clear. m3; lra.
    + rewrite Pe. clear. m3; lra.
Qed.
(** quarters of lattice vectors *)
Definition fccb (v : zv) : bool := ((zy v + zz v - zx v) mod 4 =? 0)%Z && ((zx v + zz v - zy v) mod 4 =? 0)%Z && ((zx v + zy v - zz v) mod 4 =? 0)%Z.
Definition quarter (v : zv) : v3 := V3 (IZR (zx v) / 4) (IZR (zy v) / 4) (IZR (zz v) / 4).
Lemma fcc_ok v x y : fccb v = true -> vsub x y = quarter v -> mod_fcc x y.
Proof.
  unfold fccb. rewrite !andb_true_iff, !Z.eqb_eq. intros [[A B] C] E. apply Z_div_exact_2 in A, B, C; try lia.
  exists ((zy v + zz v - zx v) / 4)%Z, ((zx v + zz v - zy v) / 4)%Z, ((zx v + zy v - zz v) / 4)%Z. rewrite E. unfold quarter.
  set (a := ((zy v + zz v - zx v) / 4)%Z) in *. set (b := ((zx v + zz v - zy v) / 4)%Z) in *. set (c := ((zx v + zy v - zz v) / 4)%Z) in *. clearbody a b c. clear E.
  assert (X : (zx v = 2 * (b + c))%Z) by lia. assert (Y : (zy v = 2 * (a + c))%Z) by lia. assert (Z0 : (zz v = 2 * (a + b))%Z) by lia. rewrite X, Y, Z0, !mult_IZR. f_equal; field.
Qed.
(** translation part of a product, in quarters *)
Definition ones (t : Z) : zv := Zv t t t.
Definition zdiff (a b c : zm * Z) : zv := let v := zapp (fst a) (ones (snd b)) in Zv (zx v + snd a - snd c) (zy v + snd a - snd c) (zz v + snd a - snd c).
Definition mulb (a b c : zm * Z) : bool := zmeqb (zmul (fst a) (fst b)) (fst c) && fccb (zdiff a b c).
Lemma mulb_ok a b c x : mulb a b c = true -> mod_fcc (zact a (zact b x)) (zact c x).
Proof.
  unfold mulb. rewrite andb_true_iff, zmeqb_eq. intros [E F]. apply (fcc_ok _ _ _ F). unfold zact. rewrite <- E, <- emb_mul, mapply_mul.
  unfold quarter, zdiff, ones. destruct a as [A t], b as [B s], c as [D r]. cbn [fst snd zx zy zz]. generalize (mapply (emb B) x). intros y. clear.
  destruct A as [x11 x12 x13 x21 x22 x23 x31 x32 x33]. unfold emb, zapp. cbn [z11 z12 z13 z21 z22 z23 z31 z32 z33 zx zy zz]. rewrite !minus_IZR, !plus_IZR, !mult_IZR. m3; field.
Qed.
Definition fgroupb (l : list (zm * Z)) : bool :=
  forallb (fun a => forallb (fun b => existsb (mulb a b) l) l) l &&
  forallb (fun a => existsb (fun b => mulb a b (zdiag 1, 0%Z) && mulb b a (zdiag 1, 0%Z)) l) l &&
  nodupb (map fst l) && forallb (fun a => forallb (fun x => (Z.abs x <=? 1)%Z) [z11 (fst a); z12 (fst a); z13 (fst a); z21 (fst a); z22 (fst a); z23 (fst a); z31 (fst a); z32 (fst a); z33 (fst a)]) l.
Lemma F_check : fgroupb Fz = true.
Proof. vm_compute. reflexivity. Qed.
Lemma third a b k : (Z.abs a <= 1)%Z -> (Z.abs b <= 1)%Z -> IZR a / 3 - IZR b / 3 = IZR k / 2 -> a = b.
Proof. intros Ha Hb E. assert (X : IZR (2 * (a - b)) = IZR (3 * k)) by (rewrite !mult_IZR, minus_IZR; lra). apply eq_IZR in X. lia. Qed.
Lemma same_matrix a b : (forall x, mod_fcc (zact a x) (zact b x)) ->
  forallb (fun x => (Z.abs x <=? 1)%Z) [z11 (fst a); z12 (fst a); z13 (fst a); z21 (fst a); z22 (fst a); z23 (fst a); z31 (fst a); z32 (fst a); z33 (fst a)] = true ->
  forallb (fun x => (Z.abs x <=? 1)%Z) [z11 (fst b); z12 (fst b); z13 (fst b); z21 (fst b); z22 (fst b); z23 (fst b); z31 (fst b); z32 (fst b); z33 (fst b)] = true -> fst a = fst b.
Proof.
  intros H A B. cbn [forallb] in A, B. rewrite !andb_true_iff, !Z.leb_le in A, B.
  destruct (H vzero) as (a0 & b0 & c0 & E0), (H (V3 (1 / 3) 0 0)) as (a1 & b1 & c1 & E1), (H (V3 0 (1 / 3) 0)) as (a2 & b2 & c2 & E2), (H (V3 0 0 (1 / 3))) as (a3 & b3 & c3 & E3). clear H.
  unfold zact in *. destruct a as [[x11 x12 x13 x21 x22 x23 x31 x32 x33] t], b as [[y11 y12 y13 y21 y22 y23 y31 y32 y33] s]. cbn [fst snd z11 z12 z13 z21 z22 z23 z31 z32 z33] in *. unfold emb in *. cbn [z11 z12 z13 z21 z22 z23 z31 z32 z33] in *.
  cbv [vsub vadd mapply vscal vzero m11 m12 m13 m21 m22 m23 m31 m32 m33 vx vy vz] in *.
  injection E0 as P0 Q0 R0. injection E1 as P1 Q1 R1. injection E2 as P2 Q2 R2. injection E3 as P3 Q3 R3. f_equal.
  - apply (third _ _ (b1 + c1 - (b0 + c0))); [lia|lia|]. rewrite !minus_IZR. lra.
  - apply (third _ _ (b2 + c2 - (b0 + c0))); [lia|lia|]. rewrite !minus_IZR. lra.
  - apply (third _ _ (b3 + c3 - (b0 + c0))); [lia|lia|]. rewrite !minus_IZR. lra.
  - apply (third _ _ (a1 + c1 - (a0 + c0))); [lia|lia|]. rewrite !minus_IZR. lra.
  - apply (third _ _ (a2 + c2 - (a0 + c0))); [lia|lia|]. rewrite !minus_IZR. lra.
  - apply (third _ _ (a3 + c3 - (a0 + c0))); [lia|lia|]. rewrite !minus_IZR. lra.
  - apply (third _ _ (a1 + b1 - (a0 + b0))); [lia|lia|]. rewrite !minus_IZR. lra.
  - apply (third _ _ (a2 + b2 - (a0 + b0))); [lia|lia|]. rewrite !minus_IZR. lra.
  - apply (third _ _ (a3 + b3 - (a0 + b0))); [lia|lia|]. rewrite !minus_IZR. lra.
Qed.
Lemma fcc_refl x : mod_fcc x x.
Proof. exists 0%Z, 0%Z, 0%Z. cbn. m3; lra. Qed.
Lemma F2_l {A B} (R : A -> B -> Prop) l l' a : Forall2 R l l' -> In a l -> exists b, In b l' /\ R a b.
Proof. induction 1 as [|x y l l' H F IH]; intros [<-|Hi] || intros []; [exists y; split; [now left|exact H]|]. destruct (IH Hi) as (b & X & Y). exists b. split; [now right|exact Y]. Qed.
Lemma F2_r {A B} (R : A -> B -> Prop) l l' b : Forall2 R l l' -> In b l' -> exists a, In a l /\ R a b.
Proof. induction 1 as [|x y l l' H F IH]; intros [<-|Hi] || intros []; [exists x; split; [now left|exact H]|]. destruct (IH Hi) as (a & X & Y). exists a. split; [now right|exact Y]. Qed.
Lemma Fd3m_group : finite_group act mod_fcc Fd3m /\ length Fd3m = 48%nat.
Proof.
  pose proof F_rep as F. pose proof F_check as Ck. unfold fgroupb in Ck. rewrite !andb_true_iff in Ck. destruct Ck as [[[Cl In_] Nd] Sm]. rewrite forallb_forall in Cl, In_, Sm. split; [constructor|].
  - exists EId. split; [reflexivity|]. intros x. apply fcc_refl.
  - intros a b Ha Hb. destruct (F2_l _ _ _ _ F Ha) as (a' & Ia & Ea), (F2_l _ _ _ _ F Hb) as (b' & Ib & Eb). specialize (Cl a' Ia). rewrite forallb_forall in Cl. specialize (Cl b' Ib). apply existsb_exists in Cl.
    destruct Cl as (c' & Ic & M). destruct (F2_r _ _ _ _ F Ic) as (c & Hc & Ec). exists c. split; [exact Hc|]. intros x. rewrite Ea, Eb, Ec. now apply mulb_ok.
  - intros a Ha. destruct (F2_l _ _ _ _ F Ha) as (a' & Ia & Ea). specialize (In_ a' Ia). apply existsb_exists in In_. destruct In_ as (b' & Ib & M). apply andb_true_iff in M. destruct M as [M1 M2].
    destruct (F2_r _ _ _ _ F Ib) as (b & Hb & Eb). exists b. split; [exact Hb|].
    assert (X : forall x, zact (zdiag 1, 0%Z) x = x) by (intros x; unfold zact; cbn [fst snd]; rewrite emb_1, mapply_1; m3; lra).
    split; intros x; rewrite Ea, Eb; [rewrite <- (X x) at 2|rewrite <- (X x) at 2]; now apply mulb_ok.
  - clear Cl In_. apply nodupb_ok in Nd. revert Nd Sm. induction F as [|a a' l l' E F IH]; intros Nd Sm; constructor.
    + apply Forall_forall. intros b Hb S0. destruct (F2_l _ _ _ _ F Hb) as (b' & Ib & Eb). cbn [map] in Nd. inversion Nd as [|? ? X _]; subst. apply X. replace (fst a') with (fst b'); [now apply in_map|].
      symmetry. apply same_matrix; [intros x; rewrite <- E, <- Eb; apply S0|apply Sm; now left|apply Sm; now right].
    + apply IH; [now inversion Nd|intros x Hx; apply Sm; now right].
  - assert (L : length Fd3m = length Fz) by (clear - F; induction F; cbn; congruence). rewrite L. reflexivity.
Qed.

(** ** products *)
Lemma prod_act a b x : act (prod_elem a b) x = act a (act b x).
Proof.
  destruct a as [|[A u]], b as [|[B v]]; cbn [prod_elem act prod_sym s_W s_w]; try reflexivity.
  destruct A, B, u, v, x. unfold vadd, mapply, mmul. cbn. f_equal; ring.
Qed.
Lemma prod_group_in A B e : In e (prod_group A B) <-> exists a b, In a A /\ In b B /\ e = prod_elem a b.
Proof.
  unfold prod_group. rewrite in_map_iff. split.
  - intros ((a & b) & E & H). apply in_prod_iff in H. exists a, b. cbn in E. intuition.
  - intros (a & b & HA & HB & ->). exists (a, b). split; [reflexivity|]. apply in_prod; assumption.
Qed.
Lemma prod_group_len A B : length (prod_group A B) = (length A * length B)%nat.
Proof. unfold prod_group. rewrite map_length. apply prod_length. Qed.
Lemma prod_act2 a b x : act2 (prod2 a b) x = act2 a (act2 b x).
Proof.
  destruct a as [|[A u]], b as [|[B v]]; cbn [prod2 act2 p_W p_w]; try reflexivity.
  destruct A, B, u, v, x. unfold add2, apply2, mul2. cbn. f_equal; ring.
Qed.
