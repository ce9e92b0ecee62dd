(** Proofs of C90: the lattice of a grid. *)
From Coq Require Import List Arith Bool ZArith QArith Qcanon Qabs Permutation Lia Lqa.
From Verif Require Import Base BaseFacts Rings FloatCmp_Model FloatCmp_Spec FloatCmp_Proofs Lattice_Model Lattice_Spec LatGen_Model LatGen_Spec LatGen_Proofs LatGen_Look
  PointGp_Model PointGp_Spec PointGp_Lin PointGp_Proofs PointGp_Tables PointGp_Group
  Group_Model Group_Spec SpaceGp_Model SpaceGp_Spec SpaceGp_Proofs SpaceGp_Group SpaceGp_Space Grid_Model Grid_Spec.
Import ListNotations.
Open Scope nat_scope.

(** ** squared distances *)
Fixpoint zsq (u v : list Z) : Z :=
  match u, v with x :: u, y :: v => ((x - y) * (x - y) + zsq u v)%Z | _, _ => 0%Z end.
Lemma zsq_nonneg u v : (0 <= zsq u v)%Z.
Proof. revert v. induction u as [|x u IH]; intros [|y v]; cbn [zsq]; try lia. specialize (IH v). pose proof (Z.square_nonneg (x - y)). lia. Qed.
Lemma zsq_0 u v : length u = length v -> (zsq u v = 0%Z <-> u = v).
Proof.
  revert v. induction u as [|x u IH]; intros [|y v] L; try discriminate; cbn [zsq]; [tauto|]. injection L as L. pose proof (zsq_nonneg u v) as P. specialize (IH v L). pose proof (Z.square_nonneg (x - y)) as Q. split.
  - intros H. assert (E : ((x - y) * (x - y) = 0)%Z) by lia. assert (x = y) by (apply Z.mul_eq_0 in E; lia). subst. f_equal. apply IH. lia.
  - intros [= -> ->]. assert (zsq v v = 0%Z) by now apply IH. rewrite Z.sub_diag. lia.
Qed.
(** one component differs by one *)
Definition one_step (n : nat) (u v : nat -> Z) : Prop :=
  exists d, d < n /\ (u d = v d + 1 \/ u d = v d - 1)%Z /\ forall e, e < n -> e <> d -> u e = v e.
Lemma zsq_1 u v : length u = length v -> (zsq u v = 1%Z <-> one_step (length u) (fun d => nth d u 0%Z) (fun d => nth d v 0%Z)).
Proof.
  revert v. induction u as [|x u IH]; intros [|y v] L; try discriminate; cbn [zsq].
  - split; [discriminate|]. intros (d & Hd & _). cbn in Hd. lia.
  - injection L as L. specialize (IH v L). pose proof (zsq_nonneg u v) as P. pose proof (zsq_0 u v L) as Z0. pose proof (Z.square_nonneg (x - y)) as Q. split.
    + intros H. destruct (Z.eq_dec x y) as [->|Ne].
      * assert (H1 : zsq u v = 1%Z) by (rewrite Z.sub_diag in H; lia). apply IH in H1. destruct H1 as (d & Hd & A & B). exists (S d). split; [cbn; lia|]. split; [exact A|].
        intros [|e] He Ne; [reflexivity|]. apply B; [cbn in He; lia|congruence].
      * assert (SQ : ((x - y) * (x - y) = 1)%Z).
        { assert ((x - y) * (x - y) <> 0)%Z by (intros E; apply Z.mul_eq_0 in E; lia). lia. }
        assert (H1 : zsq u v = 0%Z /\ (x - y = 1 \/ x - y = -1)%Z) by (split; [lia|]; destruct (Z.eq_mul_1 _ _ SQ); lia). destruct H1 as [H1 H2]. apply Z0 in H1. subst v.
        exists 0. split; [cbn; lia|]. split; [cbn [nth]; lia|]. intros [|e] He Ne'; [congruence|reflexivity].
    + intros (d & Hd & A & B). destruct d as [|d].
      * assert (E : u = v). { apply (nth_ext _ _ 0%Z 0%Z L). intros e He. apply (B (S e)); [cbn; lia|lia]. }
        apply Z0 in E. rewrite E. cbn [nth] in A. destruct A as [A|A]; [replace (x - y)%Z with 1%Z by lia|replace (x - y)%Z with (-1)%Z by lia]; reflexivity.
      * assert (E : x = y) by (apply (B 0); [cbn; lia|lia]). subst y. assert (E : zsq u v = 1%Z); [|rewrite Z.sub_diag; lia]. apply IH. exists d. split; [cbn in Hd; lia|]. split; [exact A|].
        intros e He Ne. apply (B (S e)); [cbn; lia|congruence].
Qed.

(** the unit matrix of scalar products *)
Definition eye_rows (a m : nat) : list (list Q) := map (fun i => map (fun j => if Nat.eqb i j then 1%Q else 0%Q) (seq 0 m)) (seq a (m - a)).
Lemma row_dot i : forall v a, (qsum (map (fun gy => (fst gy * snd gy)%Q) (combine (map (fun j => if Nat.eqb i j then 1%Q else 0%Q) (seq a (length v))) v)) ==
   if Nat.leb a i then nth (i - a) v 0 else 0)%Q.
Proof.
  induction v as [|x v IH]; intros a; cbn [length seq map combine qsum fold_right].
  - destruct (i - a); destruct (Nat.leb a i); reflexivity.
  - fold (qsum (map (fun gy : Q * Q => (fst gy * snd gy)%Q) (combine (map (fun j => if Nat.eqb i j then 1%Q else 0%Q) (seq (S a) (length v))) v))).
    rewrite IH. cbn [fst snd]. destruct (Nat.eqb_spec i a) as [->|Ne].
    + rewrite Nat.sub_diag, Nat.leb_refl. assert (E : Nat.leb (S a) a = false) by (apply Nat.leb_gt; lia). rewrite E. cbn [nth]. ring.
    + destruct (Nat.leb_spec a i).
      * assert (E : Nat.leb (S a) i = true) by (apply Nat.leb_le; lia). rewrite E. replace (i - a) with (S (i - S a)) by lia. cbn [nth]. ring.
      * assert (E : Nat.leb (S a) i = false) by (apply Nat.leb_gt; lia). rewrite E. ring.
Qed.
Definition qsq (v : list Q) : Q := qsum (map (fun x => (x * x)%Q) v).
Lemma quad_suffix : forall w v a, a + length w = length v -> (forall k, nth k w 0%Q = nth (a + k) v 0%Q) ->
  (qsum (map (fun rx => (snd rx * qsum (map (fun gy => (fst gy * snd gy)%Q) (combine (fst rx) v)))%Q)
     (combine (map (fun i => map (fun j => if Nat.eqb i j then 1%Q else 0%Q) (seq 0 (length v))) (seq a (length w))) w)) == qsq w)%Q.
Proof.
  induction w as [|x w IH]; intros v a L H; [reflexivity|]. cbn [length seq map combine qsum fold_right].
  change (fold_right Qplus 0%Q ?l) with (qsum l). rewrite IH.
  - cbn [fst snd]. rewrite row_dot. cbn [Nat.leb]. rewrite Nat.sub_0_r. pose proof (H 0) as H0. cbn [nth] in H0. rewrite Nat.add_0_r in H0. rewrite <- H0. reflexivity.
  - cbn in L. lia.
  - intros k. specialize (H (S k)). cbn [nth] in H. rewrite H. f_equal. lia.
Qed.
Lemma quad_eye v : (quad (map (fun i => map (fun j => if Nat.eqb i j then 1%Q else 0%Q) (seq 0 (length v))) (seq 0 (length v))) v == qsq v)%Q.
Proof. unfold quad. apply (quad_suffix v v 0); auto. Qed.

Section Grid.
Variables (extent : list Z) (pbc : list bool).
Hypothesis Bx : boxed extent pbc.
Let n := length extent.
Let g := grid_geometry extent pbc.
Definition e_ (d : nat) : Z := nth d extent 0%Z.
Definition p_ (d : nat) : bool := nth d pbc false.

Lemma grid_valid : valid g.
Proof. destruct Bx as [L F]. split; [exact L|]. split; [exact F|]. discriminate. Qed.
Lemma grid_shaped : shaped g.
Proof. unfold shaped. cbn. constructor; [apply repeat_length|constructor]. Qed.
Lemma ext_pos d : d < n -> (1 <= e_ d)%Z.
Proof. intros H. destruct Bx as [_ F]. rewrite Forall_forall in F. apply F. now apply nth_In. Qed.

Lemma grid_frac c : length c = n -> Forall2 Qeq (frac g (c ++ [0%Z])) (map inject_Z c).
Proof.
  intros L. unfold frac. rewrite cell_of_app, label_of_app. change (nth (Z.to_nat 0) (g_offsets g) []) with (repeat 0%Q (length extent)). fold n. rewrite <- L. clear L.
  induction c as [|x c IH]; cbn [length repeat combine map fst snd]; constructor; [ring|exact IH].
Qed.
Lemma sqdist_z u v : length u = n -> length v = n -> (sqdist g (u ++ [0%Z]) (v ++ [0%Z]) == inject_Z (zsq u v))%Q.
Proof.
  intros Lu Lv. unfold sqdist. change (g_gram g) with (map (fun i => map (fun j => if Nat.eqb i j then 1%Q else 0%Q) (seq 0 n)) (seq 0 n)).
  pose proof (grid_frac u Lu) as Fu. pose proof (grid_frac v Lv) as Fv. set (fu := frac g (u ++ [0%Z])) in *. set (fv := frac g (v ++ [0%Z])) in *.
  assert (Ln : length (LatGen_Model.vsub fu fv) = n).
  { unfold LatGen_Model.vsub. rewrite map_length, combine_length. assert (length fu = n /\ length fv = n); [|lia].
    split; [rewrite <- Lu, <- (map_length inject_Z u)|rewrite <- Lv, <- (map_length inject_Z v)]; [clear - Fu; induction Fu|clear - Fv; induction Fv]; cbn; auto. }
  rewrite <- Ln. rewrite quad_eye. clear Ln. assert (L : length u = length v) by lia. clear Lu Lv.
  clearbody fu fv. revert v L fu Fu fv Fv. induction u as [|x u IH]; intros [|y v] L fu Fu fv Fv; try discriminate.
  - inversion Fu; subst. reflexivity.
  - cbn [map] in *. inversion Fu as [|a ? fu' ? Ea Fu']; subst. inversion Fv as [|b ? fv' ? Eb Fv']; subst. injection L as L.
    change (((a - b) * (a - b) + qsq (LatGen_Model.vsub fu' fv') == inject_Z ((x - y) * (x - y) + zsq u v))%Q).
    rewrite (IH v L fu' Fu' fv' Fv'), Ea, Eb. rewrite inject_Z_plus, inject_Z_mult. unfold Zminus. rewrite !inject_Z_plus, !inject_Z_opp. ring.
Qed.

(** ** sites *)
Lemma around_nth c : around g c <-> exists c0, c = c0 ++ [0%Z] /\ length c0 = n /\
  forall d, d < n -> if p_ d then (-1 <= nth d c0 0 <= e_ d)%Z else (0 <= nth d c0 0 < e_ d)%Z.
Proof.
  destruct Bx as [Lp _]. unfold around, ext, per, e_, p_, n. cbn [g grid_geometry g_extent g_pbc g_offsets length]. change (Z.of_nat 1) with 1%Z.
  clear g n Bx. revert pbc Lp c. induction extent as [|e es IH]; intros [|p ps] Lp c; try discriminate.
  - cbn. split.
    + intros H. inversion H as [|x ? ? ? Hx H']; subst. inversion H'; subst. cbn [fst snd] in Hx. assert (x = 0%Z) by lia. subst. exists []. split; [reflexivity|]. split; [reflexivity|]. intros d Hd. lia.
    + intros (c0 & -> & L & _). destruct c0; [|discriminate]. cbn. constructor; [cbn; lia|constructor].
  - cbn [app combine length] in *. injection Lp as Lp. split.
    + intros H. inversion H as [|x ? c' ? Hx H']; subst. apply IH in H'; [|exact Lp]. destruct H' as (c0 & -> & L & F). exists (x :: c0). split; [reflexivity|]. split; [cbn; lia|].
      intros [|d] Hd; [cbn [nth]; cbn [fst snd] in Hx; exact Hx|]. cbn [nth]. apply F. lia.
    + intros (c0 & -> & L & F). destruct c0 as [|x c0]; [discriminate|]. cbn [app]. constructor; [apply (F 0); lia|]. apply IH; [exact Lp|]. exists c0. split; [reflexivity|]. split; [cbn in L; lia|].
      intros d Hd. apply (F (S d)). lia.
Qed.
Lemma box_nth c : of_box g c <-> exists c0, c = c0 ++ [0%Z] /\ length c0 = n /\ forall d, d < n -> (0 <= nth d c0 0 < e_ d)%Z.
Proof.
  split.
  - intros B. destruct (box_app g c B) as (c0 & q & -> & H & Hq). cbn in Hq. assert (q = 0%Z) by lia. subst. exists c0. split; [reflexivity|]. exact (proj1 (in_box_nth (GLat g [] []) _ _) H).
  - intros (c0 & -> & L & F). apply app_box; [apply (in_box_nth (GLat g [] [])); auto|cbn; lia].
Qed.
Lemma folded_nth c0 : length c0 = n -> exists c1, folded g (c0 ++ [0%Z]) = c1 ++ [0%Z] /\ length c1 = n /\ forall d, d < n -> nth d c1 0%Z = (nth d c0 0 mod e_ d)%Z.
Proof.
  unfold folded, ext, n, e_. cbn [g grid_geometry g_extent g_offsets length]. change (Z.of_nat 1) with 1%Z. generalize extent. clear. intros es. revert c0. induction es as [|e es IH]; intros [|x c0] L; try discriminate.
  - exists []. split; [reflexivity|]. split; [reflexivity|]. intros d Hd. cbn in Hd. lia.
  - injection L as L. destruct (IH c0 L) as (c1 & E & L1 & F). exists ((x mod e)%Z :: c1). cbn [app combine map fst snd]. rewrite E. split; [reflexivity|]. split; [cbn; lia|].
    intros [|d] Hd; [reflexivity|]. cbn [nth]. apply F. cbn in Hd. lia.
Qed.

Lemma nearest_grid u v : 0 < n -> length u = n -> length v = n -> around g (u ++ [0%Z]) -> around g (v ++ [0%Z]) ->
  (nearest_pair g (u ++ [0%Z]) (v ++ [0%Z]) <-> one_step n (fun d => nth d u 0%Z) (fun d => nth d v 0%Z)).
Proof.
  intros Hn Lu Lv Au Av. pose proof (zsq_1 u v ltac:(lia)) as Z1. rewrite Lu in Z1. rewrite <- Z1. assert (GD : forall i, i < n -> nth i (nth i (g_gram g) []) 0%Q = 1%Q).
  { intros i Hi. cbn [g grid_geometry g_gram]. fold n. set (row := fun i => map (fun j => if Nat.eqb i j then 1%Q else 0%Q) (seq 0 n)).
    rewrite (nth_indep _ [] (row 0)) by (rewrite map_length, seq_length; exact Hi). rewrite (map_nth row), seq_nth by exact Hi. unfold row. set (h := fun j => if Nat.eqb (0 + i) j then 1%Q else 0%Q).
    rewrite (nth_indep _ 0%Q (h 0)) by (rewrite map_length, seq_length; exact Hi). rewrite (map_nth h), seq_nth by exact Hi. unfold h. now rewrite Nat.eqb_refl. }
  assert (LG : length (g_gram g) = n) by (cbn [g grid_geometry g_gram]; now rewrite map_length, seq_length).
  split.
  - intros (_ & _ & P & (i & Hi & W) & _). rewrite LG in Hi. rewrite GD in W by exact Hi. rewrite sqdist_z in P, W by auto.
    change 1%Q with (inject_Z 1) in W. change 0%Q with (inject_Z 0) in P. rewrite <- Zlt_Qlt in P. rewrite <- Zle_Qle in W. lia.
  - intros E. split; [exact Au|]. split; [exact Av|]. split; [rewrite sqdist_z, E by auto; reflexivity|]. split.
    + exists 0. rewrite LG. split; [exact Hn|]. rewrite GD by exact Hn. rewrite sqdist_z, E by auto. discriminate.
    + intros u' v' Hu Hv P. apply around_nth in Hu, Hv. destruct Hu as (a & -> & La & _), Hv as (b & -> & Lb & _). rewrite sqdist_z in P |- * by auto. rewrite sqdist_z, E by auto.
      change 0%Q with (inject_Z 0) in P. rewrite <- Zlt_Qlt in P. rewrite <- Zle_Qle. lia.
Qed.
End Grid.
