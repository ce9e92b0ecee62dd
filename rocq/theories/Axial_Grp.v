(** The axial groups are groups (for C89). *)
From Coq Require Import List Arith Bool ZArith QArith Qreals Reals Lra Lia.
From Verif Require Import Base Axial_Model Axial_Spec Axial_Alg Axial_Rot.
Import ListNotations.
Open Scope R_scope.

Definition rep (e : elem) : m3 := match e with EId => eye3 | ESym s => s_W s end.
Definition ispure (e : elem) : Prop := match e with EId => True | ESym s => s_w s = vzero end.
Lemma act_pure e x : ispure e -> act e x = mapply (rep e) x.
Proof. destruct e as [|[W w]]; cbn; [now rewrite mapply_1|]. intros ->. m3; ring. Qed.
Lemma pure_prod a b : ispure a -> ispure b -> ispure (prod_elem a b) /\ rep (prod_elem a b) = mmul (rep a) (rep b).
Proof.
  destruct a as [|[W w]], b as [|[W' w']]; cbn; intros Ha Hb; subst; split; trivial; try (now rewrite mmul_1_l); try (now rewrite mmul_1_r). m3; ring.
Qed.
Notation mgrp3 := (mgrp mmul eye3).
Lemma hd_map {A B} (f : A -> B) l : hd_error (map f l) = option_map f (hd_error l).
Proof. now destruct l. Qed.
(** from matrices to maps *)
Lemma lift l : Forall ispure l -> hd_error l = Some EId -> mgrp3 (map rep l) -> finite_group act eq l.
Proof.
  intros P Hd [O C I N]. rewrite Forall_forall in P. constructor.
  - exists EId. split; [exact Hd|reflexivity].
  - intros a b Ha Hb. pose proof (C _ _ (in_map rep _ _ Ha) (in_map rep _ _ Hb)) as H. apply in_map_iff in H. destruct H as (c & E & Hc). exists c. split; [exact Hc|].
    intros x. rewrite !act_pure, E, mapply_mul by auto. reflexivity.
  - intros a Ha. destruct (I _ (in_map rep _ _ Ha)) as (B & HB & E & E'). apply in_map_iff in HB. destruct HB as (b & <- & Hb). exists b. split; [exact Hb|].
    split; intros x; rewrite !act_pure, <- mapply_mul by auto; rewrite ?E, ?E'; apply mapply_1.
  - clear - P N. induction l as [|a l IH]; constructor.
    + apply Forall_forall. intros b Hb Q. inversion N as [|? ? X _]; subst. apply X.
      replace (rep a) with (rep b); [now apply in_map|]. symmetry. apply mapply_ext. intros x. rewrite <- !act_pure by (apply P; cbn; auto). apply Q.
    + apply IH; [intros b Hb; apply P; now right|now inversion N].
Qed.
Lemma lift_gen gens l : Forall ispure l -> Forall ispure gens -> mgrp3 (map rep l) -> (forall g, In g gens -> In (rep g) (map rep l)) ->
  (forall a, In a l -> exists w, (forall g, In g w -> In g gens) /\ rep a = fold_right mmul eye3 (map rep w)) -> generated_by act eq gens l.
Proof.
  intros P Pg [O C I N] G W. rewrite Forall_forall in *.
  assert (X : forall w, (forall g, In g w -> In g gens) -> forall x, act_word act w x = mapply (fold_right mmul eye3 (map rep w)) x).
  { induction w as [|g w IH]; intros H x; [cbn; now rewrite mapply_1|]. cbn [act_word fold_right map]. rewrite mapply_mul. change (fold_right (fun g y => act g y) x w) with (act_word act w x).
    rewrite IH by (intros h Hh; apply H; now right). apply act_pure, Pg, H. now left. }
  split.
  - intros a Ha. destruct (W a Ha) as (w & Hw & E). exists w. split; [exact Hw|]. intros x. rewrite X, act_pure, E by auto. reflexivity.
  - intros w Hw. assert (Y : In (fold_right mmul eye3 (map rep w)) (map rep l)).
    { induction w as [|g w IH]; [exact O|]. cbn. apply C; [apply G, Hw; now left|]. apply IH. intros h Hh. apply Hw. now right. }
    apply in_map_iff in Y. destruct Y as (a & E & Ha). exists a. split; [exact Ha|]. intros x. rewrite X, <- E by exact Hw. now apply act_pure, P.
Qed.
(** products with two elements *)
Lemma prod2_rep a H : ispure a -> Forall ispure H ->
  Forall ispure (prod_group [EId; a] H) /\ map rep (prod_group [EId; a] H) = map rep H ++ map (mmul (rep a)) (map rep H) /\
  length (prod_group [EId; a] H) = (2 * length H)%nat.
Proof.
  intros Pa PH. unfold prod_group. cbn [list_prod]. rewrite app_nil_r, !map_app, !map_map. cbn [fst snd prod_elem].
  assert (X : map (fun x => prod_elem EId x) H = H) by (cbn; apply map_id). cbn [prod_elem] in X. rewrite Forall_forall in PH. repeat split.
  - apply Forall_app. split; apply Forall_forall; intros e He; apply in_map_iff in He; destruct He as (h & <- & Hh); [auto|]. apply pure_prod; auto.
  - f_equal. apply map_ext_in. intros h Hh. apply pure_prod; auto.
  - rewrite app_length, !map_length. lia.
Qed.
Lemma prod2_hd a H : hd_error H = Some EId -> hd_error (prod_group [EId; a] H) = Some EId.
Proof. destruct H as [|h H]; [discriminate|]. cbn. congruence. Qed.
(** a product of a group with two elements *)
Lemma prod2_grp a H : ispure a -> Forall ispure H -> mgrp3 (map rep H) -> mmul (rep a) (rep a) = eye3 ->
  (forall h, In h H -> In (mmul (rep a) (mmul (rep h) (rep a))) (map rep H)) -> ~ In (rep a) (map rep H) ->
  mgrp3 (map rep (prod_group [EId; a] H)).
Proof.
  intros Pa PH G Q X N. destruct (prod2_rep a H Pa PH) as (_ & -> & _). apply extend; auto using mmul_assoc, mmul_1_l, mmul_1_r.
  - rewrite Q. apply G.
  - intros h Hh. apply in_map_iff in Hh. destruct Hh as (h' & <- & Hh). exists (mmul (rep a) (mmul (rep h') (rep a))). split; [now apply X|].
    rewrite mmul_assoc, Q, mmul_1_l. reflexivity.
Qed.
Lemma pure_pure W : ispure (pure W).
Proof. reflexivity. Qed.

(** ** cyclic groups *)
Definition ang (n : Z) (i : nat) : R := 2 * PI * INR i / IZR n.
Lemma radians_ang n i : (1 <= n)%Z -> radians (360 / IZR n * IZR (Z.of_nat i)) = ang n i.
Proof. intros H. apply IZR_le in H. unfold radians, ang. rewrite <- INR_IZR_INZ. field. lra. Qed.
Lemma ang_add n i j : ang n i + ang n j = ang n (i + j).
Proof. unfold ang. rewrite plus_INR. unfold Rdiv. ring. Qed.
Lemma ang_n n : (1 <= n)%Z -> ang n (Z.to_nat n) = 2 * PI.
Proof. intros H. unfold ang. rewrite INR_IZR_INZ, Z2Nat.id by lia. apply IZR_le in H. field. lra. Qed.
Lemma ang_cos n i : (1 <= n)%Z -> (0 < i < Z.to_nat n)%nat -> cos (ang n i) <> 1.
Proof.
  intros H Hi E. pose proof (IZR_le _ _ H) as P. pose proof PI_RGT_0 as PP.
  assert (L : 0 < ang n i / 2 < PI).
  { unfold ang. split.
    - apply Rmult_lt_0_compat; [|lra]. apply Rdiv_lt_0_compat; [|lra]. apply Rmult_lt_0_compat; [lra|]. apply (lt_INR 0); lia.
    - assert (I : INR i < IZR n) by (rewrite INR_IZR_INZ; apply IZR_lt; lia).
      replace (2 * PI * INR i / IZR n / 2) with (PI * (INR i / IZR n)) by (field; lra).
      rewrite <- (Rmult_1_r PI) at 2. apply Rmult_lt_compat_l; [lra|]. apply Rmult_lt_reg_r with (IZR n); [lra|]. unfold Rdiv. rewrite Rmult_assoc, Rinv_l, Rmult_1_r, Rmult_1_l by lra. exact I. }
  pose proof (sin_gt_0 _ (proj1 L) (proj2 L)) as S0. replace (ang n i) with (2 * (ang n i / 2)) in E by field. rewrite cos_2a_sin in E.
  pose proof (Rmult_lt_0_compat _ _ S0 S0). lra.
Qed.
Section Axis.
Context (n : Z) (axis : v3) (Hn : (1 <= n)%Z) (Hx : axis <> vzero).
Let u := unit_of axis.
Let Hu : isunit u. Proof. now apply unit_unit. Qed.
Notation N := (Z.to_nat n).
Definition Rm (i : nat) : m3 := rot_matrix (ang n i) u.
Lemma Rm_pow i : pow mmul eye3 (Rm 1) i = Rm i.
Proof.
  induction i as [|i IH]; cbn [pow].
  - unfold Rm, ang. cbn [INR]. replace (2 * PI * 0 / IZR n) with 0 by (unfold Rdiv; ring). now rewrite rot_0.
  - rewrite IH. unfold Rm. rewrite rot_add by exact Hu. now rewrite ang_add.
Qed.
Lemma Rm_mul i j : mmul (Rm i) (Rm j) = Rm (i + j).
Proof. unfold Rm. rewrite rot_add by exact Hu. now rewrite ang_add. Qed.
Lemma Rm_N : Rm N = eye3.
Proof. unfold Rm. rewrite ang_n by exact Hn. apply rot_2pi. Qed.
Lemma Rm_0 : Rm 0 = eye3.
Proof. exact (eq_sym (Rm_pow 0)). Qed.
Lemma Rm_1 i : (0 < i < N)%nat -> Rm i <> eye3.
Proof. intros Hi E. apply rot_trace in E; [|exact Hu]. exact (ang_cos _ _ Hn Hi E). Qed.
Lemma Rm_neg i : (i <= N)%nat -> rot_matrix (- ang n i) u = Rm (N - i).
Proof.
  intros Hi. rewrite <- (mmul_1_r (rot_matrix _ u)), <- Rm_N. replace N with (i + (N - i))%nat at 1 by lia. rewrite <- Rm_mul, mmul_assoc. unfold Rm at 1. rewrite rot_add by exact Hu.
  replace (- ang n i + ang n i) with 0 by ring. now rewrite rot_0, mmul_1_l.
Qed.
Lemma C_pure : Forall ispure (C n axis).
Proof. constructor; [exact I|]. apply Forall_forall. intros e He. apply in_map_iff in He. destruct He as (i & <- & _). apply pure_pure. Qed.
Lemma C_rep : map rep (C n axis) = map Rm (seq 0 N).
Proof.
  unfold C, range1. replace N with (S (Z.to_nat (n - 1))) by lia. cbn [map seq rep]. rewrite !map_map. f_equal; [now rewrite Rm_0|].
  apply map_ext_in. intros i _. cbn [rotation pure rep s_W]. now rewrite radians_ang.
Qed.
Lemma C_len : length (C n axis) = N.
Proof. rewrite <- (map_length rep), C_rep, map_length, seq_length. reflexivity. Qed.
Lemma C_grp : mgrp3 (map rep (C n axis)).
Proof.
  rewrite C_rep, <- (map_ext _ _ Rm_pow). apply cyclic; auto using mmul_assoc, mmul_1_l, mmul_1_r; [lia| |].
  - rewrite Rm_pow. apply Rm_N.
  - intros i Hi. rewrite Rm_pow. now apply Rm_1.
Qed.
Lemma C_in W : In W (map rep (C n axis)) <-> exists i, (i < N)%nat /\ W = Rm i.
Proof.
  rewrite C_rep, in_map_iff. split; [intros (i & <- & Hi%in_seq); exists i; split; [lia|reflexivity]|]. intros (i & Hi & ->). exists i. split; [reflexivity|]. apply in_seq. lia.
Qed.
Lemma C_all i : In (Rm i) (map rep (C n axis)).
Proof.
  pose proof (mg_closed _ _ _ C_grp) as X. rewrite <- Rm_pow. induction i as [|i IH]; cbn [pow]; [apply (mg_one _ _ _ C_grp)|]. apply X; [|exact IH].
  apply C_in. destruct (Nat.eq_dec N 1) as [E|E]; [exists 0%nat; split; [lia|]; rewrite Rm_0, <- Rm_N, E; reflexivity|]. exists 1%nat. split; [lia|reflexivity].
Qed.
Lemma rotation_rep : rep (rotation (360 / IZR n) axis) = Rm 1.
Proof. cbn. unfold Rm. rewrite <- (radians_ang n 1) by exact Hn. cbn [Z.of_nat]. change (Z.of_nat 1) with 1%Z. now rewrite Rmult_1_r. Qed.
Lemma words_rot g i : rep g = Rm 1 -> fold_right mmul eye3 (map rep (repeat g i)) = Rm i.
Proof. intros E. rewrite <- Rm_pow. induction i as [|i IH]; [reflexivity|]. cbn. now rewrite E, IH. Qed.
Lemma fold_app l l' : fold_right mmul eye3 (l ++ l') = mmul (fold_right mmul eye3 l) (fold_right mmul eye3 l').
Proof. induction l as [|a l IH]; cbn; [now rewrite mmul_1_l|]. now rewrite IH, mmul_assoc. Qed.
End Axis.
