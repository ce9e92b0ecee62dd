From Coq Require Import List ZArith Reals Arith Lra Lia.
From Verif Require Import Balance_Model Balance_Spec Balance_Proofs Rules_Proofs Ergo_Spec Ergo_Proofs Ergo_Metro.
Import ListNotations.
Open Scope R_scope.

Lemma rsum_app {X} (f : X -> R) l m : rsum f (l ++ m) = rsum f l + rsum f m.
Proof. induction l as [|x l IH]; cbn; [ring|]. rewrite IH. ring. Qed.
Lemma rsum_map {X Y} (f : Y -> R) (g : X -> Y) l : rsum f (map g l) = rsum (fun x => f (g x)) l.
Proof. induction l as [|x l IH]; cbn; [reflexivity|]. rewrite IH. reflexivity. Qed.

(** Sums of the geometric bound. *)
Lemma geom_blocks q k n : (0 < k)%nat -> 0 <= q < 1 ->
  rsum (fun m => q ^ (m / k)) (seq 0 n) <= INR k / (1 - q).
Proof.
  intros Hk Hq. set (S0 := rsum (fun m => q ^ (m / k)) (seq 0 n)).
  assert (Hpos : forall m, 0 <= q ^ m) by (intros m; apply pow_le; lra).
  assert (E : rsum (fun m => q ^ (m / k)) (seq 0 (k + n)) = INR k + q * S0).
  { rewrite seq_app, rsum_app. f_equal.
    - rewrite (rsum_ext _ (fun _ => 1)).
      + rewrite rsum_const, seq_length. ring.
      + intros m Hm. apply in_seq in Hm. rewrite Nat.div_small by lia. reflexivity.
    - cbn [Nat.add]. replace (seq k n) with (map (fun m => (m + k)%nat) (seq 0 n)).
      + rewrite rsum_map. unfold S0. rewrite <- rsum_scal. apply rsum_ext. intros m _.
        replace (m + k)%nat with (m + 1 * k)%nat by lia. rewrite Nat.div_add by lia.
        rewrite Nat.add_1_r. reflexivity.
      + assert (H : forall n s k, map (fun m => (m + k)%nat) (seq s n) = seq (s + k) n).
        { clear. induction n as [|n IH]; intros s k; [reflexivity|]. cbn. rewrite IH. reflexivity. }
        rewrite H. reflexivity. }
  assert (L : S0 <= rsum (fun m => q ^ (m / k)) (seq 0 (k + n))).
  { replace (k + n)%nat with (n + k)%nat by lia. rewrite seq_app, rsum_app. fold S0.
    assert (0 <= rsum (fun m => q ^ (m / k)) (seq (0 + n) k)) by (apply rsum_nonneg; intros; apply Hpos). lra. }
  apply (Rmult_le_reg_r (1 - q)); [lra|]. unfold Rdiv. rewrite Rmult_assoc, Rinv_l, Rmult_1_r by lra. lra.
Qed.

Section LLN.
  Context {X : Type}.
  Variable eqd : forall x y : X, {x = y} + {x <> y}.
  Variable space : list X.
  Hypothesis Hnd : NoDup space.
  Variable K : X -> X -> R.
  Hypothesis K0 : forall x y, In x space -> In y space -> 0 <= K x y.
  Hypothesis K1 : forall x, In x space -> rsum (K x) space = 1.
  Notation pm := (path_mean space K).
  Notation kp := (kpow eqd space K).

  Lemma pm_ext n : forall x F G, (forall l, length l = n -> F l = G l) -> pm n x F = pm n x G.
  Proof.
    induction n as [|n IH]; intros x F G H; cbn [path_mean]; [apply H; reflexivity|].
    apply rsum_ext. intros y _. f_equal. apply IH. intros l Hl. apply H. cbn. rewrite Hl. reflexivity.
  Qed.

  Lemma pm_plus n : forall x F G, pm n x (fun l => F l + G l) = pm n x F + pm n x G.
  Proof.
    induction n as [|n IH]; intros x F G; cbn [path_mean]; [reflexivity|].
    rewrite <- rsum_plus. apply rsum_ext. intros y _.
    rewrite (IH y (fun l => F (y :: l)) (fun l => G (y :: l))). ring.
  Qed.

  Lemma pm_scal n : forall x c F, pm n x (fun l => c * F l) = c * pm n x F.
  Proof.
    induction n as [|n IH]; intros x c F; cbn [path_mean]; [reflexivity|].
    rewrite <- rsum_scal. apply rsum_ext. intros y _. rewrite (IH y c (fun l => F (y :: l))). ring.
  Qed.

  Lemma pm_const n : forall x c, In x space -> pm n x (fun _ => c) = c.
  Proof.
    induction n as [|n IH]; intros x c Hx; cbn [path_mean]; [reflexivity|].
    rewrite (rsum_ext _ (fun y => c * K x y)) by (intros y Hy; rewrite IH by exact Hy; ring).
    rewrite rsum_scal, K1 by exact Hx. ring.
  Qed.

  Variable g : X -> R.
  Variable M : R.
  Hypothesis HM : forall x, In x space -> Rabs (g x) <= M.

  Definition ahead (m : nat) (x : X) : R := rsum (fun z => kp m x z * g z) space.

  Lemma ahead_step m x : rsum (fun y => K x y * ahead m y) space = ahead (S m) x.
  Proof.
    unfold ahead. cbn [kpow].
    rewrite (rsum_ext _ (fun y => rsum (fun z => K x y * kp m y z * g z) space))
      by (intros y _; rewrite <- rsum_scal; apply rsum_ext; intros; ring).
    rewrite rsum_swap. apply rsum_ext. intros z _.
    rewrite (rsum_ext _ (fun y => g z * (K x y * kp m y z))) by (intros; ring).
    rewrite rsum_scal. ring.
  Qed.

  Lemma ahead_0 x : In x space -> ahead 0 x = g x.
  Proof.
    intros Hx. unfold ahead. cbn [kpow].
    rewrite (rsum_ext _ (fun z => g z * (if eqd z x then 1 else 0))).
    - apply (rsum_delta eqd g); assumption.
    - intros z _. destruct (eqd x z), (eqd z x); subst; try contradiction; ring.
  Qed.

  Lemma first_moment n : forall x, In x space ->
    pm n x (rsum g) = rsum (fun m => ahead m x) (seq 1 n).
  Proof.
    induction n as [|n IH]; intros x Hx; cbn [path_mean]; [reflexivity|].
    rewrite (rsum_ext _ (fun y => K x y * ahead 0 y + rsum (fun m => K x y * ahead m y) (seq 1 n))).
    - rewrite rsum_plus, ahead_step, rsum_swap. cbn [seq rsum]. f_equal.
      rewrite <- (seq_shift n 1), rsum_map. apply rsum_ext. intros m _. apply ahead_step.
    - intros y Hy. cbn [rsum]. rewrite (pm_plus n y (fun _ => g y) (rsum g)), pm_const, IH, ahead_0 by exact Hy.
      rewrite rsum_scal. ring.
  Qed.

  Variable A : R.
  Hypothesis HA : forall n x, In x space -> Rabs (pm n x (rsum g)) <= A.

  Lemma second_moment n : forall x, In x space ->
    pm n x (fun l => rsum g l ^ 2) <= INR n * (M ^ 2 + 2 * M * A).
  Proof.
    assert (HM0 : forall y, In y space -> 0 <= M) by (intros y Hy; eapply Rle_trans; [apply Rabs_pos|apply HM, Hy]).
    induction n as [|n IH]; intros x Hx; cbn [path_mean].
    - cbn. lra.
    - replace (INR (S n) * (M ^ 2 + 2 * M * A)) with (rsum (fun y => K x y * (INR (S n) * (M ^ 2 + 2 * M * A))) space).
      2:{ rewrite (rsum_ext _ (fun y => (INR (S n) * (M ^ 2 + 2 * M * A)) * K x y)) by (intros; ring).
          rewrite rsum_scal, K1 by exact Hx. ring. }
      apply rsum_le. intros y Hy.
      apply Rmult_le_compat_l; [apply K0; assumption|].
      rewrite (pm_ext n y _ (fun l => (g y * g y + (2 * g y) * rsum g l) + rsum g l ^ 2)) by (intros l _; cbn [rsum]; ring).
      rewrite (pm_plus n y (fun l => g y * g y + (2 * g y) * rsum g l) (fun l => rsum g l ^ 2)).
      rewrite (pm_plus n y (fun _ => g y * g y) (fun l => (2 * g y) * rsum g l)).
      rewrite pm_const, (pm_scal n y (2 * g y) (rsum g)) by exact Hy.
      rewrite S_INR. specialize (IH y Hy).
      assert (H1 : g y * g y <= M ^ 2).
      { replace (g y * g y) with (Rabs (g y) * Rabs (g y)) by (rewrite <- Rabs_mult; apply Rabs_pos_eq; nra).
        pose proof (Rabs_pos (g y)). pose proof (HM y Hy). cbn. nra. }
      assert (H2 : 2 * g y * pm n y (rsum g) <= 2 * M * A).
      { assert (Rabs (g y * pm n y (rsum g)) <= M * A).
        { rewrite Rabs_mult. apply Rmult_le_compat; try apply Rabs_pos; [apply HM, Hy|apply HA, Hy]. }
        pose proof (Rle_abs (g y * pm n y (rsum g))). lra. }
      lra.
  Qed.
End LLN.

Section Mean.
  Context {X : Type}.
  Variable eqd : forall x y : X, {x = y} + {x <> y}.
  Variable space : list X.
  Hypothesis Hnd : NoDup space.
  Variable K : X -> X -> R.
  Hypothesis K0 : forall x y, In x space -> In y space -> 0 <= K x y.
  Hypothesis K1 : forall x, In x space -> rsum (K x) space = 1.
  Variable w : X -> R.
  Hypothesis Hw : forall x, In x space -> 0 < w x.
  Hypothesis Hmix : mixes space K w.

  Lemma mse_bound f : exists C, forall n x, In x space -> (0 < n)%nat ->
    mean_square_error space K f (rsum (fun z => normalised space w z * f z) space) n x <= C / INR n.
  Proof.
    destruct Hmix as (k & q & Hk & Hq & Hm).
    set (mu := rsum (fun z => normalised space w z * f z) space).
    set (g := fun x => f x - mu). set (M := rsum (fun x => Rabs (g x)) space).
    assert (HM : forall x, In x space -> Rabs (g x) <= M).
    { intros x Hx. apply (rsum_term (fun x => Rabs (g x)) space x); [intros; apply Rabs_pos|exact Hx]. }
    set (A := M * (2 * (INR k / (1 - q)))).
    exists (M ^ 2 + 2 * M * A). intros n x Hx Hn.
    assert (HM0 : 0 <= M) by (apply rsum_nonneg; intros; apply Rabs_pos).
    assert (Htot : rsum (normalised space w) space = 1) by (apply (normalised_total space w Hw x Hx)).
    assert (Hg0 : rsum (fun z => normalised space w z * g z) space = 0).
    { unfold g. rewrite (rsum_ext _ (fun z => normalised space w z * f z + (- mu) * normalised space w z)) by (intros; ring).
      rewrite rsum_plus, rsum_scal, Htot. fold mu. ring. }
    assert (HP : forall m y, In y space -> Rabs (ahead eqd space K g m y) <= M * (2 * q ^ (m / k))).
    { intros m y Hy. unfold ahead.
      replace (rsum (fun z => kpow eqd space K m y z * g z) space)
        with (rsum (fun z => (kpow eqd space K m y z - normalised space w z) * g z) space).
      - eapply Rle_trans; [apply rsum_abs|].
        eapply Rle_trans; [|apply Rmult_le_compat_l; [exact HM0|]; apply (Hm (fun u => if eqd u y then 1 else 0) m)].
        + unfold difference. rewrite <- rsum_scal. apply rsum_le. intros z Hz. rewrite Rabs_mult, Rmult_comm.
          rewrite (pushes_kpow eqd space Hnd K m _ z Hz).
          rewrite (rsum_ext (fun u => (if eqd u y then 1 else 0) * kpow eqd space K m u z)
                     (fun u => kpow eqd space K m u z * (if eqd u y then 1 else 0))) by (intros; ring).
          rewrite (rsum_delta eqd (fun u => kpow eqd space K m u z)) by assumption.
          apply Rmult_le_compat_r; [apply Rabs_pos|apply HM, Hz].
        + apply delta_distribution; assumption.
      - rewrite (rsum_ext (fun z => (kpow eqd space K m y z - normalised space w z) * g z)
                   (fun z => kpow eqd space K m y z * g z + (-1) * (normalised space w z * g z))) by (intros; ring).
        rewrite rsum_plus, rsum_scal, Hg0. ring. }
    assert (HA : forall n x, In x space -> Rabs (path_mean space K n x (rsum g)) <= A).
    { intros n' y Hy. rewrite (first_moment eqd space Hnd K K1 g n' y Hy).
      eapply Rle_trans; [apply rsum_abs|].
      eapply Rle_trans; [apply (rsum_le _ (fun m => (M * 2) * q ^ (m / k)))|].
      - intros m _. eapply Rle_trans; [apply HP, Hy|]. lra.
      - rewrite rsum_scal. unfold A. rewrite <- Rmult_assoc. apply Rmult_le_compat_l; [lra|].
        eapply Rle_trans; [|apply (geom_blocks q k (S n') Hk Hq)].
        cbn [seq rsum]. assert (0 <= q ^ (0 / k)) by (apply pow_le; lra). lra. }
    unfold mean_square_error.
    rewrite (pm_ext space K n x _ (fun l => / INR n ^ 2 * rsum g l ^ 2)).
    - rewrite pm_scal. pose proof (second_moment space K K0 K1 g M HM A HA n x Hx) as HB.
      assert (Hn' : 0 < INR n) by (apply lt_0_INR; exact Hn).
      apply (Rmult_le_compat_l (/ INR n ^ 2)) in HB; [|apply Rlt_le, Rinv_0_lt_compat, pow_lt, Hn'].
      eapply Rle_trans; [exact HB|]. apply Req_le. field. lra.
    - intros l Hl. unfold average, g. rewrite Hl.
      assert (E : rsum (fun x0 => f x0 - mu) l = rsum f l - INR n * mu).
      { rewrite (rsum_ext _ (fun x0 => f x0 + (- mu))) by (intros; ring). rewrite rsum_plus, rsum_const, Hl. ring. }
      rewrite E. field. apply not_0_INR. lia.
  Qed.

  (** Recording every [s]-th configuration. *)
  Lemma every_kpow s x z : In x space -> In z space -> every space eqd s K x z = kpow eqd space K s x z.
  Proof.
    intros Hx Hz. unfold every. rewrite (pushes_kpow eqd space Hnd K s _ z Hz).
    rewrite (rsum_ext _ (fun u => kpow eqd space K s u z * (if eqd u x then 1 else 0))) by (intros; ring).
    apply (rsum_delta eqd (fun u => kpow eqd space K s u z)); assumption.
  Qed.

  Lemma pushes_every s n : forall d e, (forall z, In z space -> d z = e z) ->
    forall z, In z space -> pushes space (every space eqd s K) n d z = pushes space K (n * s) e z.
  Proof.
    induction n as [|n IH]; intros d e H z Hz; cbn [pushes Nat.mul]; [apply H, Hz|].
    rewrite pushes_add. apply IH; [|exact Hz]. intros y Hy.
    rewrite (pushes_kpow eqd space Hnd K s _ y Hy). unfold push. apply rsum_ext. intros x Hx.
    rewrite every_kpow, H by assumption. reflexivity.
  Qed.

  Lemma every_mixes s : (0 < s)%nat -> mixes space (every space eqd s K) w.
  Proof.
    intros Hs. destruct Hmix as (k & q & Hk & Hq & Hm). exists k, q. split; [exact Hk|]. split; [exact Hq|].
    intros d n Hd. unfold difference.
    rewrite (rsum_ext _ (fun x => Rabs (pushes space K (n * s) d x - normalised space w x))).
    - eapply Rle_trans; [apply (Hm d (n * s)%nat Hd)|]. apply Rmult_le_compat_l; [lra|].
      assert (Hle : (n / k <= n * s / k)%nat) by (apply Nat.div_le_mono; nia).
      replace (n * s / k)%nat with (n / k + (n * s / k - n / k))%nat by lia. rewrite pow_add.
      rewrite <- (Rmult_1_r (q ^ (n / k))) at 2. apply Rmult_le_compat_l; [apply pow_le; lra|].
      generalize (n * s / k - n / k)%nat. intros j. induction j as [|j IHj]; [cbn; lra|]. cbn [pow].
      assert (0 <= q ^ j) by (apply pow_le; lra). nra.
    - intros z Hz. rewrite (pushes_every s n d d (fun _ _ => eq_refl) z Hz). reflexivity.
  Qed.

  Lemma every_nonneg s x y : In x space -> In y space -> 0 <= every space eqd s K x y.
  Proof. intros Hx Hy. rewrite every_kpow by assumption. apply kpow_nonneg; assumption. Qed.
  Lemma every_row s x : In x space -> rsum (every space eqd s K x) space = 1.
  Proof.
    intros Hx. rewrite (rsum_ext _ (kpow eqd space K s x)) by (intros y Hy; apply every_kpow; assumption).
    apply kpow_row; assumption.
  Qed.
End Mean.

(** A Metropolis chain recorded every [s] steps. *)
Lemma estimate {X} (eqd : forall x y : X, {x = y} + {x <> y}) space psi mp corr T a :
  NoDup space -> proposal space T -> corrected space T corr ->
  (forall x y, In x space -> In y space -> probability_of (accepts psi mp corr x y) (a x y)) ->
  mixes space (kernel eqd space T a) (target psi mp) ->
  forall s f, (0 < s)%nat -> exists C, forall n x, In x space -> (0 < n)%nat ->
    mean_square_error space (every space eqd s (kernel eqd space T a)) f
      (rsum (fun z => normalised space (target psi mp) z * f z) space) n x <= C / INR n.
Proof.
  intros Hnd HT Hc Ha Hmix s f Hs.
  assert (K0 : forall x y, In x space -> In y space -> 0 <= kernel eqd space T a x y).
  { intros x y Hx _. apply (kernel_nonneg eqd space psi mp corr T a HT Ha x y Hx). }
  assert (K1 : forall x, In x space -> rsum (kernel eqd space T a x) space = 1).
  { intros x Hx. apply (kernel_row eqd space Hnd T a HT x Hx). }
  apply (mse_bound eqd space Hnd).
  - intros x y Hx Hy. apply (every_nonneg eqd space Hnd _ K0 s x y Hx Hy).
  - intros x Hx. apply (every_row eqd space Hnd _ K1 s x Hx).
  - intros x _. apply tpos.
  - apply (every_mixes eqd space Hnd _ (target psi mp) Hmix s Hs).
Qed.

Lemma averages {X} (eqd : forall x y : X, {x = y} + {x <> y}) space psi mp corr T a :
  NoDup space -> proposal space T -> corrected space T corr ->
  (forall x y, In x space -> In y space -> probability_of (accepts psi mp corr x y) (a x y)) ->
  connected space T -> odd_return space T \/ may_reject space T (accepts psi mp corr) ->
  forall s f, (0 < s)%nat -> exists C, forall n x, In x space -> (0 < n)%nat ->
    mean_square_error space (every space eqd s (kernel eqd space T a)) f
      (rsum (fun z => normalised space (target psi mp) z * f z) space) n x <= C / INR n.
Proof.
  intros Hnd HT Hc Ha H1 H2. apply (estimate eqd space psi mp corr T a Hnd HT Hc Ha).
  apply (mixes_if eqd space Hnd psi mp corr T a HT Hc Ha H1 H2).
Qed.
