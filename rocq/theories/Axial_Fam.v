(** The families of axial groups (for C89). *)
From Coq Require Import List Arith Bool ZArith QArith Qreals Reals Lra Lia.
From Verif Require Import Base Axial_Model Axial_Spec Axial_Alg Axial_Rot Axial_Grp.
Import ListNotations.
Open Scope R_scope.

Definition wordsof (gens : list elem) (M : m3) : Prop := exists w, (forall g, In g w -> In g gens) /\ M = fold_right mmul eye3 (map rep w).
Record family (gens l : list elem) (n : nat) : Prop := {
  fm_pure : Forall ispure l;
  fm_hd : hd_error l = Some EId;
  fm_grp : mgrp3 (map rep l);
  fm_len : length l = n;
  fm_gens : forall g, In g gens -> ispure g /\ In (rep g) (map rep l);
  fm_words : forall M, In M (map rep l) -> wordsof gens M
}.
Lemma family_group gens l n : family gens l n -> finite_group act eq l /\ length l = n /\ generated_by act eq gens l.
Proof.
  intros [P H G L X W]. split; [now apply lift|]. split; [exact L|]. apply lift_gen; auto.
  - apply Forall_forall. intros g Hg. apply X, Hg.
  - intros g Hg. apply X, Hg.
  - intros a Ha. apply W, in_map, Ha.
Qed.
Lemma words_mono gens gens' M : (forall g, In g gens -> In g gens') -> wordsof gens M -> wordsof gens' M.
Proof. intros H (w & Hw & E). exists w. auto. Qed.
Lemma words_mul gens A B : wordsof gens A -> wordsof gens B -> wordsof gens (mmul A B).
Proof.
  intros (w & Hw & ->) (w' & Hw' & ->). exists (w ++ w'). split; [intros g; rewrite in_app_iff; intros [H|H]; auto|]. now rewrite map_app, fold_app.
Qed.
Lemma words_gen gens g : In g gens -> wordsof gens (rep g).
Proof. intros H. exists [g]. split; [intros h [<-|[]]; exact H|]. cbn. now rewrite mmul_1_r. Qed.
Lemma family_ext a gens H n : family gens H n -> ispure a -> mmul (rep a) (rep a) = eye3 ->
  (forall h, In h (map rep H) -> In (mmul (rep a) (mmul h (rep a))) (map rep H)) -> ~ In (rep a) (map rep H) -> family (a :: gens) (prod_group [EId; a] H) (2 * n).
Proof.
  intros [P Hd G L X W] Pa Q Y N. destruct (prod2_rep a H Pa P) as (P' & R' & L'). constructor.
  - exact P'.
  - now apply prod2_hd.
  - apply prod2_grp; auto. intros h Hh. apply Y. now apply in_map.
  - now rewrite L', L.
  - rewrite R'. intros g [<-|Hg].
    + split; [exact Pa|]. apply in_or_app. right. apply in_map_iff. exists eye3. split; [apply mmul_1_r|]. apply G.
    + destruct (X g Hg). split; [assumption|]. apply in_or_app. now left.
  - rewrite R'. intros M HM. apply in_app_or in HM. destruct HM as [HM|HM].
    + apply (words_mono gens); [intros; now right|]. auto.
    + apply in_map_iff in HM. destruct HM as (h & <- & Hh). apply words_mul; [apply words_gen; now left|]. apply (words_mono gens); [intros; now right|]. auto.
Qed.
Lemma C_family n axis : (1 <= n)%Z -> axis <> vzero -> family [rotation (360 / IZR n) axis] (C n axis) (Z.to_nat n).
Proof.
  intros Hn Hx. constructor.
  - apply C_pure.
  - reflexivity.
  - now apply C_grp.
  - now apply C_len.
  - intros g [<-|[]]. split; [reflexivity|]. rewrite rotation_rep by assumption. now apply C_all.
  - intros M HM. apply C_in in HM; [|assumption..]. destruct HM as (i & _ & ->). exists (repeat (rotation (360 / IZR n) axis) i). split.
    + intros g Hg. left. symmetry. exact (repeat_spec _ _ _ Hg).
    + symmetry. apply words_rot; try assumption. now apply rotation_rep.
Qed.
Lemma C_conj n axis a M : (1 <= n)%Z -> axis <> vzero -> mmul a a = eye3 -> (forall t, mmul (rot_matrix t (unit_of axis)) a = mmul a (rot_matrix (- t) (unit_of axis))) ->
  In M (map rep (C n axis)) -> In (mmul a (mmul M a)) (map rep (C n axis)).
Proof.
  intros Hn Hx Q X HM. apply C_in in HM; [|assumption..]. destruct HM as (i & Hi & ->). unfold Rm. rewrite X, mmul_assoc, Q, mmul_1_l, Rm_neg by (assumption || lia). now apply C_all.
Qed.
Lemma C_det n axis M : (1 <= n)%Z -> axis <> vzero -> In M (map rep (C n axis)) -> det M = 1.
Proof. intros Hn Hx HM. apply C_in in HM; [|assumption..]. destruct HM as (i & _ & ->). apply rot_det. now apply unit_unit. Qed.
Lemma refl_elem a : rep (reflection a) = refl_matrix (unit_of a).
Proof. reflexivity. Qed.
Lemma Ch_family n axis : (1 <= n)%Z -> axis <> vzero -> family [reflection axis; rotation (360 / IZR n) axis] (Ch n axis) (2 * Z.to_nat n).
Proof.
  intros Hn Hx. pose proof (unit_unit _ Hx) as U. apply family_ext.
  - now apply C_family.
  - reflexivity.
  - rewrite refl_elem. now apply refl_sq.
  - intros M HM. rewrite refl_elem. pose proof HM as HM'. apply C_in in HM'; [|assumption..]. destruct HM' as (i & Hi & E). rewrite E in *. unfold Rm. rewrite <- refl_rot, mmul_assoc, refl_sq, mmul_1_l by exact U. exact HM.
  - intros HM. apply C_det in HM; [|assumption..]. rewrite refl_elem, refl_det in HM by exact U. lra.
Qed.
Lemma perp_b a b : vdot a b = 0 -> perpendicular_b a b = true.
Proof. intros E. unfold perpendicular_b. rewrite E, Rabs_R0. destruct (Rle_dec _ _) as [_|N]; [reflexivity|]. exfalso. apply N. lra. Qed.
Lemma Cv_family n axis axis2 : (1 <= n)%Z -> axis <> vzero -> axis2 <> vzero -> vdot axis axis2 = 0 ->
  exists l, Cv n axis axis2 = Ok l /\ family [reflection axis2; rotation (360 / IZR n) axis] l (2 * Z.to_nat n).
Proof.
  intros Hn Hx Hy E. pose proof (unit_unit _ Hx) as U. pose proof (unit_unit _ Hy) as U'. pose proof (unit_perp _ _ Hx Hy E) as P. unfold Cv. rewrite perp_b by exact E. eexists. split; [reflexivity|].
  apply family_ext.
  - now apply C_family.
  - reflexivity.
  - rewrite refl_elem. now apply refl_sq.
  - intros M HM. rewrite refl_elem. apply C_conj; auto using refl_sq. intros t. now apply rot_refl2.
  - intros HM. apply C_det in HM; [|assumption..]. rewrite refl_elem, refl_det in HM by exact U'. lra.
Qed.
Lemma C2 axis : C 2 axis = [EId; rotation 180 axis].
Proof.
  unfold C, range1. change (Z.to_nat (2 - 1)) with 1%nat. cbn [seq map]. change (Z.of_nat 1) with 1%Z. replace (360 / 2 * 1) with 180 by field. reflexivity.
Qed.
Lemma rot180 axis : rep (rotation 180 axis) = rot_matrix PI (unit_of axis).
Proof. cbn. f_equal. unfold radians. field. Qed.
Lemma rot180_sq u : isunit u -> mmul (rot_matrix PI u) (rot_matrix PI u) = eye3.
Proof. intros U. rewrite rot_add by exact U. replace (PI + PI) with (2 * PI) by ring. apply rot_2pi. Qed.
Lemma rot_rot180 u u' t : isunit u -> isunit u' -> vdot u u' = 0 -> mmul (rot_matrix t u) (rot_matrix PI u') = mmul (rot_matrix PI u') (rot_matrix (- t) u).
Proof. intros U U' P. rewrite rot_pi, mscal_mul_l, mscal_mul_r. f_equal. now apply rot_refl2. Qed.
Lemma D_eq n axis axis2 : vdot axis axis2 = 0 -> D n axis axis2 = Ok (prod_group [EId; rotation 180 axis2] (C n axis)).
Proof. intros E. unfold D. now rewrite perp_b, C2 by exact E. Qed.
Lemma unit_neq u : isunit u -> vscal (-1) u <> u.
Proof. intros U E. unfold isunit in U. destruct u as [x y z]. cbv [vscal vdot vx vy vz] in *. injection E. intros Ez Ey Ex. assert (x = 0) by lra. assert (y = 0) by lra. assert (z = 0) by lra. subst. lra. Qed.
Lemma D_family n axis axis2 : (1 <= n)%Z -> axis <> vzero -> axis2 <> vzero -> vdot axis axis2 = 0 ->
  family [rotation 180 axis2; rotation (360 / IZR n) axis] (prod_group [EId; rotation 180 axis2] (C n axis)) (2 * Z.to_nat n).
Proof.
  intros Hn Hx Hy E. pose proof (unit_unit _ Hx) as U. pose proof (unit_unit _ Hy) as U'. pose proof (unit_perp _ _ Hx Hy E) as P. apply family_ext.
  - now apply C_family.
  - reflexivity.
  - rewrite rot180. now apply rot180_sq.
  - intros M HM. rewrite rot180. apply C_conj; auto using rot180_sq. intros t. now apply rot_rot180.
  - intros HM. rewrite rot180 in HM. apply C_in in HM; [|assumption..]. destruct HM as (i & _ & X). pose proof (rot_axis _ (ang n i) U) as A. unfold Rm in X. rewrite <- X, rot_pi in A.
    apply (unit_neq _ U). rewrite <- A at 2. rewrite <- (refl_perp (unit_of axis2) (unit_of axis)) at 1 by (rewrite <- P; cbv [vdot]; ring).
    generalize (refl_matrix (unit_of axis2)) as B. generalize (unit_of axis) as v. intros v B. m3; ring.
Qed.
Lemma D_det n axis axis2 M : (1 <= n)%Z -> axis <> vzero -> axis2 <> vzero -> In M (map rep (prod_group [EId; rotation 180 axis2] (C n axis))) -> det M = 1.
Proof.
  intros Hn Hx Hy HM. destruct (prod2_rep (rotation 180 axis2) (C n axis) (pure_pure _) (C_pure n axis)) as (_ & R & _). rewrite R in HM. apply in_app_or in HM.
  destruct HM as [HM|HM]; [now apply C_det in HM|]. apply in_map_iff in HM. destruct HM as (h & <- & Hh). apply C_det in Hh; [|assumption..]. rewrite det_mul, Hh, rot180, rot_det by now apply unit_unit. ring.
Qed.
Lemma Dh_family n axis axis2 : (1 <= n)%Z -> axis <> vzero -> axis2 <> vzero -> vdot axis axis2 = 0 ->
  exists l, Dh n axis axis2 = Ok l /\ family [reflection axis; rotation 180 axis2; rotation (360 / IZR n) axis] l (4 * Z.to_nat n).
Proof.
  intros Hn Hx Hy E. pose proof (unit_unit _ Hx) as U. pose proof (unit_unit _ Hy) as U'. pose proof (unit_perp _ _ Hx Hy E) as P. unfold Dh. rewrite D_eq by exact E. cbn [bind]. eexists. split; [reflexivity|].
  replace (4 * Z.to_nat n)%nat with (2 * (2 * Z.to_nat n))%nat by lia. apply family_ext.
  - now apply D_family.
  - reflexivity.
  - rewrite refl_elem. now apply refl_sq.
  - intros M HM. rewrite refl_elem.
    assert (X : mmul M (refl_matrix (unit_of axis)) = mmul (refl_matrix (unit_of axis)) M).
    { destruct (prod2_rep (rotation 180 axis2) (C n axis) (pure_pure _) (C_pure n axis)) as (_ & R & _). rewrite R in HM. apply in_app_or in HM.
      assert (Y : forall h, In h (map rep (C n axis)) -> mmul h (refl_matrix (unit_of axis)) = mmul (refl_matrix (unit_of axis)) h).
      { intros h Hh. apply C_in in Hh; [|assumption..]. destruct Hh as (i & _ & ->). symmetry. now apply refl_rot. }
      destruct HM as [HM|HM]; [auto|]. apply in_map_iff in HM. destruct HM as (h & <- & Hh). rewrite <- mmul_assoc, Y by exact Hh. rewrite !mmul_assoc. f_equal. rewrite rot180, rot_pi, mscal_mul_l, mscal_mul_r.
      f_equal. symmetry. now apply refl_refl. }
    rewrite X, mmul_assoc, refl_sq, mmul_1_l by exact U. exact HM.
  - intros HM. apply D_det in HM; [|assumption..]. rewrite refl_elem, refl_det in HM by exact U. lra.
Qed.
(** ** rotoreflections *)
Section Roto.
Context (n : Z) (axis : v3) (Hn : (1 <= n)%Z) (Hx : axis <> vzero).
Notation u := (unit_of axis).
Let U : isunit u. Proof. now apply unit_unit. Qed.
Definition Sm (i : nat) : m3 := if Nat.odd i then mmul (refl_matrix u) (Rm n axis i) else Rm n axis i.
Lemma Sm_pow i : pow mmul eye3 (Sm 1) i = Sm i.
Proof.
  induction i as [|i IH]; cbn [pow]; [symmetry; apply Rm_0; assumption|]. rewrite IH. unfold Sm. change (Nat.odd 1) with true. cbv iota. rewrite Nat.odd_succ, <- Nat.negb_odd. destruct (Nat.odd i); cbn [negb].
  - rewrite <- mmul_assoc, (mmul_assoc (Rm n axis 1)). unfold Rm at 1. rewrite <- refl_rot by exact U. rewrite <- mmul_assoc, mmul_assoc, refl_sq, mmul_1_l by exact U. now apply Rm_mul.
  - rewrite <- mmul_assoc, Rm_mul by assumption. reflexivity.
Qed.
Lemma Sm_add i j : mmul (Sm i) (Sm j) = Sm (i + j).
Proof.
  pose proof (pow_add mmul eye3 mmul_assoc mmul_1_l (Sm 1) i j) as X. rewrite !Sm_pow in X. now symmetry.
Qed.
Lemma Sm_det i : det (Sm i) = if Nat.odd i then -1 else 1.
Proof. unfold Sm. destruct (Nat.odd i); [rewrite det_mul, refl_det by exact U|]; unfold Rm; rewrite rot_det by exact U; ring. Qed.
Lemma roto_rep i : rep (rotoreflection (360 / IZR n * IZR (Z.of_nat i)) axis) = mmul (refl_matrix u) (Rm n axis i).
Proof. cbn. now rewrite radians_ang. Qed.
Lemma roto_1 : rep (rotoreflection (360 / IZR n) axis) = Sm 1.
Proof. unfold Sm. change (Nat.odd 1) with true. cbv iota. rewrite <- roto_rep. change (Z.of_nat 1) with 1%Z. now rewrite Rmult_1_r. Qed.
End Roto.
Section Even.
Context (n : Z) (axis : v3) (Hn : (1 <= n)%Z) (Hx : axis <> vzero) (Ev : (n mod 2 = 0)%Z).
Notation u := (unit_of axis).
Notation Sm' := (Sm n axis).
Lemma odd_N : Nat.odd (Z.to_nat n) = false.
Proof.
  destruct (Nat.odd (Z.to_nat n)) eqn:E; [|reflexivity]. apply Nat.odd_spec in E. destruct E as (k & E). assert (n = 2 * Z.of_nat k + 1)%Z by lia. subst n. rewrite Z.add_comm, Z.mul_comm, Z_mod_plus_full in Ev. discriminate.
Qed.
Lemma S_pure : Forall ispure (S_ n axis).
Proof.
  unfold S_. rewrite Ev. cbn [Z.eqb]. constructor; [exact I|]. apply Forall_forall. intros e He. apply in_map_iff in He. destruct He as (i & <- & _). destruct (Z.eqb (i mod 2) 1); apply pure_pure.
Qed.
Lemma S_rep : map rep (S_ n axis) = map Sm' (seq 0 (Z.to_nat n)).
Proof.
  unfold S_. rewrite Ev. cbn [Z.eqb]. unfold range1. replace (Z.to_nat n) with (Datatypes.S (Z.to_nat (n - 1))) by lia. cbn [map seq]. rewrite !map_map. f_equal; [symmetry; now apply Rm_0|].
  apply map_ext. intros i. unfold Sm.
  assert (X : Z.eqb (Z.of_nat i mod 2) 1 = Nat.odd i).
  { change 2%Z with (Z.of_nat 2). rewrite <- Nat2Z.inj_mod. destruct (Nat.odd i) eqn:O.
    - apply Nat.odd_spec in O. destruct O as (k & ->). apply Z.eqb_eq. rewrite Nat.add_comm, Nat.mul_comm, Nat.mod_add by lia. reflexivity.
    - apply Z.eqb_neq. assert (O' : Nat.even i = true) by now rewrite <- Nat.negb_odd, O. apply Nat.even_spec in O'. destruct O' as (k & ->). rewrite Nat.mul_comm, Nat.mod_mul by lia. discriminate. }
  rewrite X. destruct (Nat.odd i); [now apply roto_rep|]. cbn. now rewrite radians_ang.
Qed.
Lemma Sm_N : Sm' (Z.to_nat n) = eye3.
Proof. unfold Sm. rewrite odd_N. now apply Rm_N. Qed.
Lemma S_grp : mgrp3 (map rep (S_ n axis)).
Proof.
  rewrite S_rep, <- (map_ext _ _ (Sm_pow n axis Hx)). apply cyclic; auto using mmul_assoc, mmul_1_l, mmul_1_r; [lia| |].
  - rewrite Sm_pow by assumption. apply Sm_N.
  - intros i Hi E. rewrite Sm_pow in E by assumption. pose proof (f_equal det E) as X. rewrite Sm_det, det_1 in X by assumption. unfold Sm in E. destruct (Nat.odd i); [lra|]. now apply Rm_1 in E.
Qed.
Lemma S_in M : In M (map rep (S_ n axis)) <-> exists i, (i < Z.to_nat n)%nat /\ M = Sm' i.
Proof.
  rewrite S_rep, in_map_iff. split; [intros (i & <- & Hi%in_seq); exists i; split; [lia|reflexivity]|]. intros (i & Hi & ->). exists i. split; [reflexivity|]. apply in_seq. lia.
Qed.
Lemma S_family : family [rotoreflection (360 / IZR n) axis] (S_ n axis) (Z.to_nat n).
Proof.
  constructor.
  - apply S_pure.
  - unfold S_. now rewrite Ev.
  - apply S_grp.
  - rewrite <- (map_length rep), S_rep, map_length, seq_length. reflexivity.
  - intros g [<-|[]]. split; [reflexivity|]. rewrite roto_1 by assumption. apply S_in. exists 1%nat. split; [|reflexivity]. destruct (Z.eq_dec n 1) as [->|X]; [discriminate|lia].
  - intros M HM. apply S_in in HM. destruct HM as (i & _ & ->). exists (repeat (rotoreflection (360 / IZR n) axis) i). split.
    + intros g Hg. left. symmetry. exact (repeat_spec _ _ _ Hg).
    + rewrite <- Sm_pow by assumption. induction i as [|i IH]; [reflexivity|]. cbn [pow repeat map fold_right]. now rewrite roto_1, IH by assumption.
Qed.
End Even.
Lemma S_odd_family n axis : (1 <= n)%Z -> axis <> vzero -> (n mod 2 = 1)%Z -> family [rotoreflection (360 / IZR n) axis] (S_ n axis) (2 * Z.to_nat n).
Proof.
  intros Hn Hx Od. unfold S_. rewrite Od. change (1 =? 1)%Z with true. cbv iota. destruct (Ch_family n axis Hn Hx) as [P H G L X W]. pose proof (unit_unit _ Hx) as U.
  assert (O : Nat.odd (Z.to_nat n) = true).
  { destruct (Nat.odd (Z.to_nat n)) eqn:E; [reflexivity|]. assert (E' : Nat.even (Z.to_nat n) = true) by now rewrite <- Nat.negb_odd, E. apply Nat.even_spec in E'. destruct E' as (k & E'). assert (n = 2 * Z.of_nat k)%Z by lia. subst n.
    rewrite Z.mul_comm, Z_mod_mult in Od. discriminate. }
  destruct (prod2_rep (reflection axis) (C n axis) (pure_pure _) (C_pure n axis)) as (_ & R & _). fold (Ch n axis) in R || change (prod_group [EId; reflection axis] (C n axis)) with (Ch n axis) in R.
  assert (G1 : forall g i, rep g = Sm n axis 1 -> wordsof [g] (Sm n axis i)).
  { intros g i E. exists (repeat g i). split; [intros h Hh; left; symmetry; exact (repeat_spec _ _ _ Hh)|]. rewrite <- Sm_pow by assumption. induction i as [|i IH]; [reflexivity|]. cbn [pow repeat map fold_right]. now rewrite E, IH. }
  constructor; auto.
  - intros g [<-|[]]. split; [reflexivity|]. rewrite R. apply in_or_app. right. apply in_map_iff. exists (Rm n axis 1). split; [|now apply C_all]. symmetry. now rewrite roto_1.
  - intros M HM. rewrite R in HM. apply in_app_or in HM.
    assert (Y : forall i, wordsof [rotoreflection (360 / IZR n) axis] (Rm n axis i) /\ wordsof [rotoreflection (360 / IZR n) axis] (mmul (refl_matrix (unit_of axis)) (Rm n axis i))).
    { intros i. pose proof (G1 _ i (roto_1 n axis Hn)) as A. pose proof (G1 _ (i + Z.to_nat n)%nat (roto_1 n axis Hn)) as B. unfold Sm in A, B. rewrite Nat.odd_add, O in B. rewrite <- (Rm_mul n axis Hx i), Rm_N, mmul_1_r in B by assumption.
      destruct (Nat.odd i); cbn [xorb] in B; auto. }
    destruct HM as [HM|HM].
    + apply C_in in HM; [|assumption..]. destruct HM as (i & _ & ->). apply Y.
    + apply in_map_iff in HM. destruct HM as (h & <- & Hh). apply C_in in Hh; [|assumption..]. destruct Hh as (i & _ & ->). apply Y.
Qed.
Lemma even2 n : ((2 * n) mod 2 = 0)%Z.
Proof. rewrite Z.mul_comm. apply Z_mod_mult. Qed.
Lemma Dd_family n axis axis2 : (1 <= n)%Z -> axis <> vzero -> axis2 <> vzero -> vdot axis axis2 = 0 ->
  exists l, Dd n axis axis2 = Ok l /\ family [reflection axis2; rotoreflection (360 / IZR (2 * n)) axis] l (4 * Z.to_nat n).
Proof.
  intros Hn Hx Hy E. pose proof (unit_unit _ Hx) as U. pose proof (unit_unit _ Hy) as U'. pose proof (unit_perp _ _ Hx Hy E) as P. unfold Dd. rewrite perp_b by exact E. eexists. split; [reflexivity|].
  assert (H2 : (1 <= 2 * n)%Z) by lia. pose proof (even2 n) as Ev.
  replace (4 * Z.to_nat n)%nat with (2 * Z.to_nat (2 * n))%nat by lia. apply family_ext.
  - now apply S_family.
  - reflexivity.
  - rewrite refl_elem. now apply refl_sq.
  - intros M HM. rewrite refl_elem. apply S_in in HM; [|assumption..]. destruct HM as (i & Hi & ->).
    set (j := (Z.to_nat (2 * n) - i)%nat). assert (X : mmul (refl_matrix (unit_of axis2)) (mmul (Sm (2 * n) axis i) (refl_matrix (unit_of axis2))) = Sm (2 * n) axis j).
    { assert (R : mmul (Rm (2 * n) axis i) (refl_matrix (unit_of axis2)) = mmul (refl_matrix (unit_of axis2)) (Rm (2 * n) axis j)).
      { unfold Rm at 1. rewrite rot_refl2 by assumption. f_equal. apply Rm_neg; (assumption || lia). }
      assert (Oj : Nat.odd j = Nat.odd i). { pose proof (odd_N (2 * n) H2 Ev) as O. replace (Z.to_nat (2 * n)) with (j + i)%nat in O by (subst j; lia). rewrite Nat.odd_add in O. destruct (Nat.odd j), (Nat.odd i); cbn in O; congruence. }
      unfold Sm. rewrite Oj. destruct (Nat.odd i).
      - rewrite <- (mmul_assoc _ (Rm _ _ _)), R, (mmul_assoc (refl_matrix (unit_of axis))), (refl_refl (unit_of axis)), <- mmul_assoc, mmul_assoc, refl_sq, mmul_1_l by assumption. reflexivity.
      - rewrite R, mmul_assoc, refl_sq, mmul_1_l by exact U'. reflexivity. }
    rewrite X. destruct i as [|i].
    + assert (Z0 : j = Z.to_nat (2 * n)) by (subst j; lia). rewrite Z0, Sm_N by assumption. apply S_in; [assumption..|]. exists 0%nat. split; [lia|]. symmetry. now apply Rm_0.
    + apply S_in; [assumption..|]. exists j. split; [subst j; lia|reflexivity].
  - intros HM. apply S_in in HM; [|assumption..]. destruct HM as (i & Hi & X). rewrite refl_elem in X. pose proof (f_equal det X) as Y. rewrite refl_det, Sm_det in Y by assumption. unfold Sm in X. destruct (Nat.odd i); [|lra].
    apply (unit_neq _ U). pose proof (f_equal (fun A => mapply A (unit_of axis)) X) as Z0. cbv beta in Z0. rewrite mapply_mul in Z0. unfold Rm in Z0. rewrite rot_axis, refl_axis in Z0 by exact U. rewrite <- Z0. apply refl_perp. rewrite <- P. cbv [vdot]. ring.
Qed.
Lemma even_mod n : Z.even n = true -> (n mod 2 = 0)%Z.
Proof. intros E. rewrite Zmod_even, E. reflexivity. Qed.
Lemma odd_mod n : Z.even n = false -> (n mod 2 = 1)%Z.
Proof. intros E. rewrite Zmod_even, E. reflexivity. Qed.
