From Coq Require Import List ZArith QArith Qround Qabs Bool Lia Lqa.
From Verif Require Import FloatCmp_Model FloatCmp_Spec.
Import ListNotations.
Open Scope Q_scope.

Lemma floor_bounds q : inject_Z (Qfloor q) <= q /\ q < inject_Z (Qfloor q) + 1.
Proof.
  split; [apply Qfloor_le|]. pose proof (Qlt_floor q) as H. rewrite inject_Z_plus in H. exact H.
Qed.

Lemma rint_nearest q : nearest q (rint q).
Proof.
  unfold nearest, rint. destruct (floor_bounds q) as [A B].
  destruct (Qcompare_spec (q - inject_Z (Qfloor q)) (1 # 2)) as [E|E|E].
  - destruct (Z.even (Qfloor q)); apply Qabs_Qle_condition; [split; lra|].
    rewrite inject_Z_plus. change (inject_Z 1) with 1. split; lra.
  - apply Qabs_Qle_condition; split; lra.
  - apply Qabs_Qle_condition. rewrite inject_Z_plus. change (inject_Z 1) with 1. split; lra.
Qed.

Lemma inject_lt_1 (a b : Z) : inject_Z a < inject_Z b + 1 -> (a <= b)%Z.
Proof.
  intros H. change 1 with (inject_Z 1) in H. rewrite <- inject_Z_plus in H.
  rewrite <- Zlt_Qlt in H. lia.
Qed.

(** strictly within a half of an integer: that integer *)
Lemma rint_unique q n : Qabs (q - inject_Z n) < 1 # 2 -> rint q = n.
Proof.
  intros H. apply Qabs_Qlt_condition in H. destruct H as [A B].
  pose proof (rint_nearest q) as N. apply Qabs_Qle_condition in N. destruct N as [C D].
  assert (inject_Z (rint q) < inject_Z n + 1) by lra.
  assert (inject_Z n < inject_Z (rint q) + 1) by lra.
  apply inject_lt_1 in H. apply inject_lt_1 in H0. lia.
Qed.

Lemma floor_unique q n : inject_Z n <= q -> q < inject_Z n + 1 -> Qfloor q = n.
Proof.
  intros A B. destruct (floor_bounds q) as [C D].
  assert (H : inject_Z (Qfloor q) < inject_Z n + 1) by lra.
  assert (H0 : inject_Z n < inject_Z (Qfloor q) + 1) by lra.
  apply inject_lt_1 in H. apply inject_lt_1 in H0. lia.
Qed.

Lemma rint_mono a b : a <= b -> (rint a <= rint b)%Z.
Proof.
  intros H. unfold rint. destruct (floor_bounds a) as [A B], (floor_bounds b) as [C D].
  assert (F : (Qfloor a <= Qfloor b)%Z) by (apply Qfloor_resp_le; exact H).
  assert (F' : (Qfloor a = Qfloor b \/ Qfloor a + 1 <= Qfloor b)%Z) by lia.
  destruct F' as [F'|F'].
  - rewrite F' in *.
    destruct (Qcompare_spec (a - inject_Z (Qfloor b)) (1 # 2)) as [E|E|E],
             (Qcompare_spec (b - inject_Z (Qfloor b)) (1 # 2)) as [E'|E'|E'];
      try (destruct (Z.even (Qfloor b)); lia); lra.
  - destruct (Qcompare_spec (a - inject_Z (Qfloor a)) (1 # 2)) as [E|E|E],
             (Qcompare_spec (b - inject_Z (Qfloor b)) (1 # 2)) as [E'|E'|E'];
      repeat match goal with |- context [Z.even ?x] => destruct (Z.even x) end; lia.
Qed.

Lemma rint_shift q n : Z.even n = true -> rint (q + inject_Z n) = (rint q + n)%Z.
Proof.
  intros En. unfold rint.
  assert (F : Qfloor (q + inject_Z n) = (Qfloor q + n)%Z).
  { destruct (floor_bounds q). apply floor_unique; rewrite inject_Z_plus; lra. }
  rewrite F. rewrite inject_Z_plus.
  assert (E : q + inject_Z n - (inject_Z (Qfloor q) + inject_Z n) == q - inject_Z (Qfloor q)) by ring.
  rewrite (Qcompare_comp _ _ E (1 # 2) (1 # 2)) by reflexivity.
  destruct (_ ?= _); [|reflexivity|lia].
  rewrite Z.even_add, En. destruct (Z.even (Qfloor q)); cbn; lia.
Qed.

Lemma rint_comp a b : a == b -> rint a = rint b.
Proof. intros H. apply Z.le_antisymm; apply rint_mono; rewrite H; apply Qle_refl. Qed.

Lemma rint_ties q n : q == inject_Z n + (1 # 2) -> Z.even (rint q) = true.
Proof.
  intros H. unfold rint.
  assert (F : Qfloor q = n) by (apply floor_unique; rewrite H; lra). rewrite F.
  assert (E : q - inject_Z n == 1 # 2) by (rewrite H; ring).
  rewrite (Qcompare_comp _ _ E (1 # 2) (1 # 2)) by reflexivity.
  change (1 # 2 ?= 1 # 2) with Eq. cbv iota.
  destruct (Z.even n) eqn:En; [exact En|]. rewrite Z.even_add, En. reflexivity.
Qed.

(** ** comparable *)
Lemma comparable_nearest x : nearest (x * inject_Z 3326400 + (5413 # 15629)) (comparable x).
Proof. apply rint_nearest. Qed.

Lemma comparable_same x y : comparable x = comparable y -> Qabs (x - y) <= width.
Proof.
  intros H. pose proof (comparable_nearest x) as A. pose proof (comparable_nearest y) as B.
  rewrite <- H in B. apply Qabs_Qle_condition in A. apply Qabs_Qle_condition in B.
  change (inject_Z 3326400) with (3326400 # 1) in *.
  apply Qabs_Qle_condition. unfold width. destruct A, B. split; lra.
Qed.

Lemma comparable_mono x y : x <= y -> (comparable x <= comparable y)%Z.
Proof.
  intros H. apply rint_mono. apply Qplus_le_compat; [|apply Qle_refl].
  apply Qmult_le_compat_r; [exact H|]. vm_compute. discriminate.
Qed.

Lemma comparable_mesh x k y : on_mesh x k -> Qabs (y - x) < (4 # 100000000) -> comparable y = k.
Proof.
  intros M H. apply rint_unique. unfold on_mesh in M. apply Qabs_Qlt_condition in H.
  change (inject_Z bin_density) with (3326400 # 1). change (inject_Z 3326400) with (3326400 # 1) in M.
  unfold offset. rewrite <- M. destruct H. apply Qabs_Qlt_condition. split; lra.
Qed.

Lemma comparable_close_refuted : forall eps, 0 < eps -> exists x y, Qabs (x - y) < eps /\ comparable x <> comparable y.
Proof.
  intros eps He.
  (* the boundary between the bins of 0 and 1 *)
  set (b := ((1 # 2) - (5413 # 15629)) / (3326400 # 1)).
  set (d := if Qlt_le_dec eps (1 # 100000000) then eps * (1 # 4) else 1 # 400000000).
  assert (D : 0 < d /\ d <= eps * (1 # 4) /\ d <= 1 # 400000000).
  { unfold d. destruct (Qlt_le_dec eps (1 # 100000000)); (split; [|split]); lra. }
  exists (b - d), (b + d). destruct D as (D1 & D2 & D3). split.
  - apply Qabs_Qlt_condition. split; lra.
  - assert (A : comparable (b - d) = 0%Z).
    { apply rint_unique. change (inject_Z bin_density) with (3326400 # 1). unfold offset.
      assert (B : b * (3326400 # 1) == (1 # 2) - (5413 # 15629)) by (unfold b; field).
      apply Qabs_Qlt_condition. change (inject_Z 0) with 0. split; lra. }
    assert (C : comparable (b + d) = 1%Z).
    { apply rint_unique. change (inject_Z bin_density) with (3326400 # 1). unfold offset.
      assert (B : b * (3326400 # 1) == (1 # 2) - (5413 # 15629)) by (unfold b; field).
      apply Qabs_Qlt_condition. change (inject_Z 1) with 1. split; lra. }
    rewrite A, C. discriminate.
Qed.

Lemma comparable_shift x n : comparable (x + inject_Z n) = (comparable x + n * 3326400)%Z.
Proof.
  unfold comparable, comparable_with.
  rewrite <- rint_shift; [apply rint_comp|rewrite Z.even_mul; cbn; now rewrite orb_true_r].
  rewrite inject_Z_mult. unfold bin_density. ring.
Qed.

Lemma periodic_shift x n : comparable_periodic true (x + inject_Z n) = comparable_periodic true x.
Proof.
  unfold comparable_periodic, comparable_periodic_with. cbv zeta iota.
  change (comparable_with bin_density offset (x + inject_Z n)) with (comparable (x + inject_Z n)).
  rewrite comparable_shift. apply Z.mod_add. discriminate.
Qed.

Lemma periodic_range x : (0 <= comparable_periodic true x < 3326400)%Z.
Proof. apply Z.mod_pos_bound. reflexivity. Qed.

Lemma periodic_off x : comparable_periodic false x = comparable x.
Proof. reflexivity. Qed.

Lemma periodic_same x y : comparable_periodic true x = comparable_periodic true y ->
  exists n, Qabs (x - y - inject_Z n) <= width.
Proof.
  intros H. unfold comparable_periodic, comparable_periodic_with in H. cbv zeta iota in H.
  set (a := comparable_with bin_density offset x) in H. set (b := comparable_with bin_density offset y) in H.
  exists ((a / bin_density) - (b / bin_density))%Z.
  assert (E : Qabs (x - (y + inject_Z (a / bin_density - b / bin_density))) <= width).
  { apply comparable_same. rewrite comparable_shift. change (comparable x) with a. change (comparable y) with b.
    pose proof (Z.div_mod a bin_density). pose proof (Z.div_mod b bin_density).
    change 3326400%Z with bin_density. assert (bin_density <> 0)%Z by discriminate.
    specialize (H0 H2). specialize (H1 H2). nia. }
  assert (Ex : x - y - inject_Z (a / bin_density - b / bin_density)
          == x - (y + inject_Z (a / bin_density - b / bin_density))) by ring.
  rewrite Ex. exact E.
Qed.

(** an odd density breaks the periodicity *)
Lemma odd_density : comparable_periodic_with 3 (1 # 2) true 0 <> comparable_periodic_with 3 (1 # 2) true (0 + inject_Z 1).
Proof. vm_compute. discriminate. Qed.

(** ** is_approx_int *)
Lemma approx_int atol x : 0 <= atol -> is_approx_int atol x = true <-> exists n, Qabs (x - inject_Z n) <= atol.
Proof.
  intros Ha. unfold is_approx_int, isclose. split.
  - intros H. apply Qle_bool_iff in H. now exists (rint x).
  - intros [n H]. apply Qle_bool_iff.
    destruct (Qlt_le_dec (Qabs (x - inject_Z n)) (1 # 2)) as [L|L].
    + rewrite (rint_unique x n L). exact H.
    + pose proof (rint_nearest x) as N. unfold nearest in N. lra.
Qed.

(** ** prune_zeros *)
Lemma prune_cleaned tol q : cleaned tol q (prune tol q).
Proof.
  unfold cleaned, prune, isclose.
  assert (E : Qabs (q - 0) == Qabs q) by (apply Qabs_wd; ring).
  destruct (Qle_bool (Qabs (q - 0)) tol) eqn:L.
  - apply Qle_bool_iff in L. split; [reflexivity|]. intros. lra.
  - assert (tol < Qabs (q - 0)).
    { apply Qnot_le_lt. intros C. apply Qle_bool_iff in C. congruence. }
    split; [lra|reflexivity].
Qed.

Lemma isclose0 q tol : isclose q 0 tol = true <-> Qabs q <= tol.
Proof.
  unfold isclose. rewrite Qle_bool_iff.
  assert (E : Qabs (q - 0) == Qabs q) by (apply Qabs_wd; ring). rewrite E. reflexivity.
Qed.

Definition real_ok (x : arr) : Prop := a_complex x = false -> Forall (fun z => snd z == 0) (a_vals x).

Lemma prune_result x : real_ok x ->
  Forall2 (fun z w => cleaned default_atol (fst z) (fst w) /\ cleaned default_atol (snd z) (snd w))
          (a_vals x) (a_vals (p_result (prune_zeros default_atol x))) /\
  (a_complex (p_result (prune_zeros default_atol x)) = true <->
   a_complex x = true /\ Exists (fun z => default_atol < Qabs (snd z)) (a_vals x)).
Proof.
  intros Hr. unfold prune_zeros. destruct (a_complex x) eqn:C.
  - destruct (forallb _ (a_vals x)) eqn:F; cbn [p_result a_vals a_complex].
    + rewrite forallb_forall in F. split.
      * clear - F. induction (a_vals x) as [|z l IH]; cbn; [constructor|]. constructor.
        -- split; [apply prune_cleaned|]. cbn. pose proof (F z (or_introl eq_refl)) as H. apply isclose0 in H.
           split; [reflexivity|]. intros. lra.
        -- apply IH. intros w Hw. apply F. now right.
      * split; [discriminate|]. intros [_ E]. apply Exists_exists in E. destruct E as (z & Hz & E).
        apply F in Hz. apply isclose0 in Hz. lra.
    + split.
      * clear. induction (a_vals x) as [|z l IH]; cbn; [constructor|]. constructor; [|exact IH].
        split; apply prune_cleaned.
      * split; [intros _; split; [reflexivity|]|reflexivity].
        clear - F. induction (a_vals x) as [|z l IH]; cbn in F; [discriminate|].
        apply andb_false_iff in F. destruct F as [F|F]; [apply Exists_cons_hd|apply Exists_cons_tl; auto].
        apply Qnot_le_lt. intros L. apply isclose0 in L. congruence.
  - cbn [p_result a_vals a_complex]. split; [|split; [discriminate|intros [H _]; discriminate]].
    specialize (Hr C). clear - Hr. induction Hr as [|z l H Hl IH]; cbn; [constructor|]. constructor; [|exact IH].
    split; [apply prune_cleaned|]. cbn. split; [reflexivity|]. intros. rewrite H. reflexivity.
Qed.

Lemma prune_atol_refuted : exists atol x z, a_complex x = false /\ In z (a_vals x) /\ Qabs (fst z) <= atol /\
  exists w, In w (a_vals (p_result (prune_zeros atol x))) /\ ~ fst w == 0.
Proof.
  exists (1 # 2), (Arr false [(1 # 4, 0)]), (1 # 4, 0). split; [reflexivity|]. split; [now left|].
  split; [vm_compute; discriminate|]. exists (1 # 4, 0). split; [now left|]. vm_compute. discriminate.
Qed.

Lemma prune_drops_refuted : exists atol x z, a_complex x = true /\ In z (a_vals x) /\ Qabs (snd z) <= atol /\
  ~ snd z == 0 /\ p_result (prune_zeros atol x) = Arr false [(fst z, 0)] /\ ~ fst z == 0 /\ Qabs (fst z) <= atol.
Proof.
  exists (1 # 2), (Arr true [(1 # 4, 1 # 4)]), (1 # 4, 1 # 4). split; [reflexivity|]. split; [now left|].
  split; [vm_compute; discriminate|]. split; [vm_compute; discriminate|]. split; [reflexivity|].
  split; vm_compute; discriminate.
Qed.

Lemma prune_argument_refuted : exists x, p_argument (prune_zeros default_atol x) <> x /\ p_shares (prune_zeros default_atol x) = true.
Proof. exists (Arr false [(1 # 1000000000, 0)]). split; [vm_compute; discriminate|reflexivity]. Qed.

Lemma prune_argument atol x :
  Forall2 (fun z w => cleaned default_atol (fst z) (fst w)) (a_vals x) (a_vals (p_argument (prune_zeros atol x))) /\
  a_complex (p_argument (prune_zeros atol x)) = a_complex x.
Proof.
  unfold prune_zeros. destruct (a_complex x); [destruct (forallb _ _)|]; cbn [p_argument a_vals a_complex];
    (split; [|reflexivity]);
    induction (a_vals x) as [|z l IH]; cbn; constructor; try exact IH; apply prune_cleaned.
Qed.
