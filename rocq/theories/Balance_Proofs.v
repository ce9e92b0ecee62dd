(** * Proofs: detailed balance *)
From Coq Require Import List ZArith Reals Lra Lia.
From Verif Require Import Balance_Model Balance_Spec.
Import ListNotations.
Open Scope R_scope.

Lemma rsum_ext {X} (f g : X -> R) l : (forall x, In x l -> f x = g x) -> rsum f l = rsum g l.
Proof.
  induction l as [|x l IH]; intros H; cbn; [reflexivity|].
  rewrite (H x) by (left; reflexivity). f_equal. apply IH. intros y Hy. apply H. right. exact Hy.
Qed.
Lemma rsum_scal {X} (f : X -> R) c l : rsum (fun x => c * f x) l = c * rsum f l.
Proof. induction l as [|x l IH]; cbn; [ring|]. rewrite IH. ring. Qed.
Lemma rsum_plus {X} (f g : X -> R) l : rsum (fun x => f x + g x) l = rsum f l + rsum g l.
Proof. induction l as [|x l IH]; cbn; [ring|]. rewrite IH. ring. Qed.
Lemma rsum_zero {X} (f : X -> R) l : (forall x, In x l -> f x = 0) -> rsum f l = 0.
Proof.
  induction l as [|x l IH]; intros H; cbn; [reflexivity|].
  rewrite (H x) by (left; reflexivity). rewrite IH; [ring|]. intros y Hy. apply H. right. exact Hy.
Qed.
Lemma rsum_swap {X Y} (f : X -> Y -> R) l m :
  rsum (fun x => rsum (f x) m) l = rsum (fun y => rsum (fun x => f x y) l) m.
Proof.
  induction l as [|x l IH]; cbn.
  - symmetry. apply rsum_zero. reflexivity.
  - rewrite IH, <- rsum_plus. reflexivity.
Qed.
Lemma rsum_delta {X} (eqd : forall x y : X, {x = y} + {x <> y}) (f : X -> R) z l :
  NoDup l -> In z l -> rsum (fun x => f x * (if eqd x z then 1 else 0)) l = f z.
Proof.
  induction 1 as [|x l Hx Hnd IH]; intros Hin; [destruct Hin|]. cbn.
  destruct (eqd x z) as [->|Hne].
  - rewrite rsum_zero; [ring|]. intros y Hy. destruct (eqd y z) as [->|]; [contradiction|ring].
  - destruct Hin as [E|Hin]; [contradiction|]. rewrite IH by exact Hin. ring.
Qed.

Lemma exp_INR n r : exp (INR n * r) = exp r ^ n.
Proof.
  induction n as [|n IH]; [rewrite Rmult_0_l; apply exp_0|].
  rewrite S_INR. replace ((INR n + 1) * r) with (r + INR n * r) by ring.
  rewrite exp_plus, IH. reflexivity.
Qed.

Lemma exp_pow r z : exp (IZR z * r) = powerRZ (exp r) z.
Proof.
  destruct z as [|p|p].
  - rewrite Rmult_0_l. apply exp_0.
  - cbn [powerRZ]. rewrite <- exp_INR, INR_IZR_INZ, positive_nat_Z. reflexivity.
  - cbn [powerRZ]. rewrite <- exp_INR, INR_IZR_INZ, positive_nat_Z, <- exp_Ropp. f_equal.
    rewrite <- Ropp_mult_distr_l_reverse, <- opp_IZR. reflexivity.
Qed.

Lemma prob_unique r a : 0 <= r -> probability_of (fun u => u < r) a -> a = Rmin 1 r.
Proof.
  intros Hr [[Ha0 Ha1] H]. unfold Rmin. destruct (Rle_dec 1 r) as [Hle|Hnle].
  - destruct (Rle_lt_or_eq_dec a 1 Ha1) as [Hlt|]; [|assumption].
    specialize (H a (conj Ha0 Hlt)). exfalso. assert (a < a) by (apply H; lra). lra.
  - assert (Hr1 : r < 1) by lra. destruct (Rtotal_order a r) as [Hlt|[E|Hgt]]; [|exact E|].
    + assert (a < a); [apply (H a); lra|lra].
    + assert (r < r); [apply (H r); lra|lra].
Qed.

Lemma prob_exists r : 0 <= r -> probability_of (fun u => u < r) (Rmin 1 r).
Proof.
  intros Hr. unfold probability_of, Rmin. destruct (Rle_dec 1 r); split; intros; try lra; split; lra.
Qed.

Lemma accepts_prob {X} (f : X -> R) mp corr x y :
  exists a, probability_of (accepts f mp corr x y) a.
Proof.
  unfold accepts. destruct (corr x y) as [[c|]|]; cbn [exp_ext]; eexists; apply prob_exists;
    try (apply Rlt_le, exp_pos); lra.
Qed.

Lemma accepts_iff_np {X} (f : X -> R) mp corr x y u :
  accepts f mp corr x y u <-> np_accepts f mp corr x y u.
Proof.
  unfold accepts, np_accepts, log_prob. rewrite Rmult_minus_distr_l.
  destruct (corr x y) as [[c|]|]; cbn [exp_ext]; rewrite ?Rplus_0_r; unfold Rgt; tauto.
Qed.

Lemma tpos {X} (psi : X -> R) mp x : 0 < target psi mp x.
Proof. unfold target. rewrite <- exp_pow. apply exp_pos. Qed.

Lemma lratio {X} (psi : X -> R) mp x y :
  exp (log_prob psi mp y - log_prob psi mp x) = target psi mp y / target psi mp x.
Proof.
  unfold log_prob, target, Rminus. rewrite exp_plus, exp_Ropp, !exp_pow. reflexivity.
Qed.

Lemma accept_ratio_at {X} (space : list X) (psi : X -> R) mp corr T :
  proposal space T -> corrected space T corr ->
  forall x y a, In x space -> In y space -> 0 < T x y ->
  probability_of (accepts psi mp corr x y) a ->
  a = Rmin 1 (target psi mp y * T y x / (target psi mp x * T x y)).
Proof.
  intros HT Hc x y a Hx Hy HTp H.
  pose proof (tpos psi mp x) as Hpx. pose proof (tpos psi mp y) as Hpy.
  pose proof (Hc x y Hx Hy HTp) as HC.
  assert (HTyx : 0 <= T y x) by (apply HT; assumption).
  unfold accepts in H. destruct (corr x y) as [[c|]|].
  - destruct HC as [Hp Hcc]. cbn [exp_ext] in H. rewrite exp_plus, lratio, Hcc, exp_ln in H
      by (apply Rdiv_lt_0_compat; assumption).
    replace (target psi mp y / target psi mp x * (T y x / T x y))
      with (target psi mp y * T y x / (target psi mp x * T x y)) in H
      by (field; split; apply Rgt_not_eq; assumption).
    apply prob_unique; [|exact H].
    apply Rlt_le, Rdiv_lt_0_compat; apply Rmult_lt_0_compat; assumption.
  - cbn [exp_ext] in H. rewrite HC.
    replace (target psi mp y * 0 / (target psi mp x * T x y)) with 0
      by (unfold Rdiv; ring). apply prob_unique; [lra|exact H].
  - rewrite lratio in H. rewrite HC.
    replace (target psi mp y * T x y / (target psi mp x * T x y))
      with (target psi mp y / target psi mp x)
      by (field; split; apply Rgt_not_eq; assumption).
    apply prob_unique; [|exact H]. apply Rlt_le, Rdiv_lt_0_compat; assumption.
Qed.

Section P.
  Context {X : Type}.
  Variable eqd : forall x y : X, {x = y} + {x <> y}.
  Variable space : list X.
  Hypothesis Hnd : NoDup space.
  Variable psi : X -> R.
  Variable mp : Z.
  Variable corr : X -> X -> option ext.
  Variable T a : X -> X -> R.
  Hypothesis HT : proposal space T.
  Hypothesis Hc : corrected space T corr.
  Hypothesis Ha : forall x y, In x space -> In y space -> probability_of (accepts psi mp corr x y) (a x y).
  Notation pi := (target psi mp).

  Lemma target_pos x : 0 < pi x.
  Proof. apply tpos. Qed.

  Lemma accept_ratio x y : In x space -> In y space -> 0 < T x y ->
    a x y = Rmin 1 (pi y * T y x / (pi x * T x y)).
  Proof. intros Hx Hy Hp. apply (accept_ratio_at space psi mp corr T HT Hc x y _ Hx Hy Hp (Ha x y Hx Hy)). Qed.

  Lemma flow x y : In x space -> In y space ->
    pi x * T x y * a x y = pi y * T y x * a y x.
  Proof.
    intros Hx Hy. pose proof (target_pos x) as Hpx. pose proof (target_pos y) as Hpy.
    assert (H1 : 0 <= T x y) by (apply HT; assumption).
    assert (H2 : 0 <= T y x) by (apply HT; assumption).
    destruct (Rle_lt_or_eq_dec _ _ H1) as [P1|E1]; destruct (Rle_lt_or_eq_dec _ _ H2) as [P2|E2].
    - rewrite (accept_ratio x y), (accept_ratio y x) by assumption.
      set (A := pi x * T x y). set (B := pi y * T y x).
      assert (0 < A) by (apply Rmult_lt_0_compat; assumption).
      assert (0 < B) by (apply Rmult_lt_0_compat; assumption).
      unfold Rmin. destruct (Rle_dec 1 (B / A)) as [h1|h1]; destruct (Rle_dec 1 (A / B)) as [h2|h2].
      + assert (A <= B) by (apply (Rmult_le_compat_r A) in h1; [|lra];
          unfold Rdiv in h1; rewrite Rmult_assoc, Rinv_l in h1 by lra; lra).
        assert (B <= A) by (apply (Rmult_le_compat_r B) in h2; [|lra];
          unfold Rdiv in h2; rewrite Rmult_assoc, Rinv_l in h2 by lra; lra). lra.
      + field. lra.
      + field. lra.
      + exfalso. apply Rnot_le_lt in h1. apply Rnot_le_lt in h2.
        apply (Rmult_lt_compat_r A) in h1; [|lra].
        unfold Rdiv in h1; rewrite Rmult_assoc, Rinv_l in h1 by lra.
        apply (Rmult_lt_compat_r B) in h2; [|lra].
        unfold Rdiv in h2; rewrite Rmult_assoc, Rinv_l in h2 by lra. lra.
    - rewrite (accept_ratio x y) by assumption. rewrite <- E2.
      replace (pi y * 0 / (pi x * T x y)) with 0 by (unfold Rdiv; ring).
      rewrite Rmin_right by lra. ring.
    - rewrite (accept_ratio y x) by assumption. rewrite <- E1.
      replace (pi x * 0 / (pi y * T y x)) with 0 by (unfold Rdiv; ring).
      rewrite Rmin_right by lra. ring.
    - rewrite <- E1, <- E2. ring.
  Qed.

  Notation K := (kernel eqd space T a).

  Lemma kernel_off x z : In z space -> x <> z -> K x z = T x z * a x z.
  Proof.
    intros Hz Hne. unfold kernel. destruct (eqd x z) as [|_]; [contradiction|].
    rewrite (rsum_ext _ (fun y => (T x y * a x y) * (if eqd y z then 1 else 0))).
    - apply (rsum_delta eqd (fun y => T x y * a x y)); assumption.
    - intros y _. ring.
  Qed.

  Lemma balance x z : In x space -> In z space -> pi x * K x z = pi z * K z x.
  Proof.
    intros Hx Hz. destruct (eqd x z) as [->|Hne]; [reflexivity|].
    rewrite !kernel_off by (auto; congruence). rewrite <- !Rmult_assoc. apply flow; assumption.
  Qed.

  Lemma kernel_row x : In x space -> rsum (K x) space = 1.
  Proof.
    intros Hx. unfold kernel. rewrite rsum_swap.
    rewrite (rsum_ext _ (T x)); [apply HT, Hx|]. intros y Hy.
    rewrite (rsum_ext _ (fun z => T x y * a x y * (if eqd z y then 1 else 0) +
                                  T x y * (1 - a x y) * (if eqd z x then 1 else 0))).
    - rewrite rsum_plus.
      rewrite (rsum_delta eqd (fun _ => T x y * a x y)) by assumption.
      rewrite (rsum_delta eqd (fun _ => T x y * (1 - a x y))) by assumption. ring.
    - intros z _. destruct (eqd y z), (eqd z y), (eqd x z), (eqd z x); subst; try contradiction; ring.
  Qed.

  Lemma kernel_nonneg x z : In x space -> 0 <= K x z.
  Proof.
    intros Hx. unfold kernel.
    assert (H : forall l, incl l space -> 0 <= rsum (fun y => T x y *
       (a x y * (if eqd y z then 1 else 0) + (1 - a x y) * (if eqd x z then 1 else 0))) l).
    { induction l as [|y l IH]; intros Hi; cbn; [lra|].
      assert (Hy : In y space) by (apply Hi; left; reflexivity).
      assert (0 <= T x y) by (apply HT; assumption). destruct (Ha x y Hx Hy) as [[A0 A1] _].
      assert (0 <= rsum (fun y => T x y *
        (a x y * (if eqd y z then 1 else 0) + (1 - a x y) * (if eqd x z then 1 else 0))) l)
        by (apply IH; intros w Hw; apply Hi; right; exact Hw).
      assert (0 <= a x y * (if eqd y z then 1 else 0) + (1 - a x y) * (if eqd x z then 1 else 0))
        by (destruct (eqd y z), (eqd x z); lra).
      apply Rplus_le_le_0_compat; [apply Rmult_le_pos; assumption|assumption]. }
    apply H. intros w Hw. exact Hw.
  Qed.

  Lemma push_target z : In z space -> push space K pi z = pi z.
  Proof.
    intros Hz. unfold push. rewrite (rsum_ext _ (fun x => pi z * K z x)).
    - rewrite rsum_scal, kernel_row by exact Hz. ring.
    - intros x Hx. apply balance; assumption.
  Qed.

  Lemma push_ext d e z : (forall x, In x space -> d x = e x) -> push space K d z = push space K e z.
  Proof. intros H. unfold push. apply rsum_ext. intros x Hx. rewrite H by exact Hx. reflexivity. Qed.

  Lemma pushes_ext n : forall d e, (forall x, In x space -> d x = e x) ->
    forall z, In z space -> pushes space K n d z = pushes space K n e z.
  Proof.
    induction n as [|n IH]; intros d e H z Hz; cbn; [apply H, Hz|].
    apply IH; [|exact Hz]. intros x _. apply push_ext, H.
  Qed.

  Lemma pushes_target n z : In z space -> pushes space K n pi z = pi z.
  Proof.
    intros Hz. induction n as [|n IH]; cbn; [reflexivity|].
    rewrite (pushes_ext n _ pi); [exact IH| |exact Hz]. intros x Hx. apply push_target, Hx.
  Qed.
End P.
