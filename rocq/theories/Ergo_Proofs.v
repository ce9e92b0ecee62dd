From Coq Require Import List ZArith Reals Arith Lra Lia.
From Verif Require Import Balance_Model Balance_Spec Balance_Proofs Rules_Proofs Ergo_Spec.
Import ListNotations.
Open Scope R_scope.

(** ** Sums *)
Lemma rsum_le {X} (f g : X -> R) l : (forall x, In x l -> f x <= g x) -> rsum f l <= rsum g l.
Proof.
  induction l as [|x l IH]; intros H; cbn; [lra|].
  apply Rplus_le_compat; [apply H; left; reflexivity|]. apply IH. intros y Hy. apply H. right. exact Hy.
Qed.

Lemma rsum_term {X} (f : X -> R) l x : (forall x, In x l -> 0 <= f x) -> In x l -> f x <= rsum f l.
Proof.
  induction l as [|y l IH]; intros H Hin; [destruct Hin|]. cbn.
  assert (H0 : forall x, In x l -> 0 <= f x) by (intros z Hz; apply H; right; exact Hz).
  destruct Hin as [->|Hin].
  - pose proof (rsum_nonneg f l H0). lra.
  - pose proof (IH H0 Hin). pose proof (H y (or_introl eq_refl)). lra.
Qed.

Lemma rsum_pos_ex {X} (f : X -> R) l : 0 < rsum f l -> exists x, In x l /\ 0 < f x.
Proof.
  induction l as [|x l IH]; cbn; intros H; [lra|].
  destruct (Rlt_dec 0 (f x)) as [Hp|Hn]; [exists x; split; [left; reflexivity|exact Hp]|].
  destruct IH as (y & Hy & Hp); [lra|]. exists y. split; [right; exact Hy|exact Hp].
Qed.

Lemma rsum_abs {X} (f : X -> R) l : Rabs (rsum f l) <= rsum (fun x => Rabs (f x)) l.
Proof.
  induction l as [|x l IH]; cbn; [rewrite Rabs_R0; lra|].
  eapply Rle_trans; [apply Rabs_triang|]. lra.
Qed.

Section Abstract.
  Context {X : Type}.
  Variable eqd : forall x y : X, {x = y} + {x <> y}.
  Variable space : list X.
  Hypothesis Hnd : NoDup space.
  Variable K : X -> X -> R.
  Hypothesis K0 : forall x y, In x space -> In y space -> 0 <= K x y.
  Hypothesis K1 : forall x, In x space -> rsum (K x) space = 1.

  Fixpoint kpow (n : nat) (x z : X) : R :=
    match n with
    | O => if eqd x z then 1 else 0
    | S n => rsum (fun y => K x y * kpow n y z) space
    end.

  Lemma kpow_nonneg n : forall x z, In x space -> 0 <= kpow n x z.
  Proof.
    induction n as [|n IH]; intros x z Hx; cbn [kpow].
    - destruct (eqd x z); lra.
    - apply rsum_nonneg. intros y Hy. apply Rmult_le_pos; [apply K0; assumption|apply IH, Hy].
  Qed.

  Lemma kpow_row n : forall x, In x space -> rsum (kpow n x) space = 1.
  Proof.
    induction n as [|n IH]; intros x Hx; cbn [kpow].
    - rewrite (rsum_ext _ (fun z => (fun _ => 1) z * (if eqd z x then 1 else 0))).
      + apply (rsum_delta eqd (fun _ => 1)); assumption.
      + intros z _. destruct (eqd x z), (eqd z x); subst; try contradiction; ring.
    - rewrite rsum_swap. rewrite (rsum_ext _ (K x)); [apply K1, Hx|].
      intros y Hy. rewrite rsum_scal, IH by exact Hy. ring.
  Qed.

  Lemma pushes_kpow n : forall d z, In z space ->
    pushes space K n d z = rsum (fun x => d x * kpow n x z) space.
  Proof.
    induction n as [|n IH]; intros d z Hz; cbn [pushes kpow].
    - symmetry. apply (rsum_delta eqd d); assumption.
    - rewrite IH by exact Hz. unfold push.
      rewrite (rsum_ext _ (fun y => rsum (fun x => d x * (K x y * kpow n y z)) space)).
      + rewrite rsum_swap. apply rsum_ext. intros x Hx. rewrite <- rsum_scal. reflexivity.
      + intros y _. rewrite Rmult_comm, <- rsum_scal. apply rsum_ext. intros x _. ring.
  Qed.

  Lemma kpow_walk m : forall n x y z, In x space -> In y space ->
    0 < kpow m x y -> 0 < kpow n y z -> 0 < kpow (m + n) x z.
  Proof.
    induction m as [|m IH]; intros n x y z Hx Hy H1 H2; cbn [kpow Nat.add] in *.
    - destruct (eqd x y) as [->|]; [exact H2|lra].
    - apply rsum_pos_ex in H1. destruct H1 as (w & Hw & Hp).
      pose proof (K0 x w Hx Hw) as HK. pose proof (kpow_nonneg m w y Hw) as Hk.
      assert (HK' : 0 < K x w) by (destruct (Rle_lt_or_eq_dec _ _ HK) as [|E]; [assumption|rewrite <- E in Hp; lra]).
      assert (Hk' : 0 < kpow m w y) by (destruct (Rle_lt_or_eq_dec _ _ Hk) as [|E]; [assumption|rewrite <- E in Hp; lra]).
      pose proof (IH n w y z Hw Hy Hk' H2) as Hr.
      eapply Rlt_le_trans; [|apply (rsum_term (fun v => K x v * kpow (m + n) v z) space w); [|exact Hw]].
      + apply Rmult_lt_0_compat; assumption.
      + intros v Hv. apply Rmult_le_pos; [apply K0; assumption|apply kpow_nonneg, Hv].
  Qed.

  Lemma kpow_one x y : In y space -> kpow 1 x y = K x y.
  Proof. intros Hy. cbn [kpow]. apply (rsum_delta eqd (K x)); assumption. Qed.

  (** Bounds over the whole space. *)
  Lemma bound_len (P : nat -> X -> Prop) l :
    (forall x, In x l -> exists n, P n x) -> exists L, forall x, In x l -> exists n, (n <= L)%nat /\ P n x.
  Proof.
    induction l as [|x l IH]; intros H; [exists 0%nat; intros ? []|].
    destruct IH as (L & HL); [intros y Hy; apply H; right; exact Hy|].
    destruct (H x (or_introl eq_refl)) as (n & Hn). exists (Nat.max n L).
    intros y [<-|Hy]; [exists n; split; [lia|exact Hn]|].
    destruct (HL y Hy) as (m & Hm & Hp). exists m. split; [lia|exact Hp].
  Qed.

  Lemma bound_pos {A} (f : A -> R) l : (forall x, In x l -> 0 < f x) -> exists e, 0 < e /\ forall x, In x l -> e <= f x.
  Proof.
    induction l as [|x l IH]; intros H; [exists 1; split; [lra|intros ? []]|].
    destruct IH as (e & He & Hl); [intros y Hy; apply H; right; exact Hy|].
    exists (Rmin (f x) e). split.
    - apply Rmin_glb_lt; [apply H; left; reflexivity|exact He].
    - intros y [<-|Hy]; [apply Rmin_l|]. eapply Rle_trans; [apply Rmin_r|]. apply Hl, Hy.
  Qed.

  Lemma bound_pairs (f : X -> X -> R) : (forall x y, In x space -> In y space -> 0 < f x y) ->
    exists e, 0 < e /\ forall x y, In x space -> In y space -> e <= f x y.
  Proof.
    intros H. destruct (bound_pos (fun p => f (fst p) (snd p)) (list_prod space space)) as (e & He & Hl).
    - intros [x y] Hp. apply in_prod_iff in Hp. apply H; apply Hp.
    - exists e. split; [exact He|]. intros x y Hx Hy. apply (Hl (x, y)). apply in_prod_iff. auto.
  Qed.

  Definition l1 (f : X -> R) : R := rsum (fun x => Rabs (f x)) space.

  Lemma l1_nonneg f : 0 <= l1 f.
  Proof. apply rsum_nonneg. intros x _. apply Rabs_pos. Qed.

  (** Doeblin's contraction. *)
  Lemma contract n e f : (forall x y, In x space -> In y space -> e <= kpow n x y) ->
    rsum f space = 0 ->
    l1 (pushes space K n f) <= (1 - INR (length space) * e) * l1 f.
  Proof.
    intros He H0. unfold l1.
    rewrite (rsum_ext _ (fun z => Rabs (rsum (fun x => f x * (kpow n x z - e)) space))).
    - eapply Rle_trans; [apply rsum_le; intros z Hz; apply rsum_abs|]. cbn beta.
      rewrite rsum_swap. rewrite <- rsum_scal. apply Req_le. apply rsum_ext. intros x Hx.
      rewrite (rsum_ext _ (fun z => Rabs (f x) * kpow n x z + - (Rabs (f x) * e))).
      + rewrite rsum_plus, rsum_scal, kpow_row by exact Hx. rewrite rsum_const. ring.
      + intros z Hz. rewrite Rabs_mult, (Rabs_pos_eq (kpow n x z - e)); [ring|].
        pose proof (He x z Hx Hz). lra.
    - intros z Hz. f_equal. rewrite pushes_kpow by exact Hz.
      rewrite (rsum_ext (fun x => f x * (kpow n x z - e)) (fun x => f x * kpow n x z + (- e) * f x))
        by (intros x _; ring).
      rewrite rsum_plus, rsum_scal, H0. ring.
  Qed.

  Lemma pushes_total n f : rsum (pushes space K n f) space = rsum f space.
  Proof.
    rewrite (rsum_ext _ (fun z => rsum (fun x => f x * kpow n x z) space)) by (intros z Hz; apply pushes_kpow, Hz).
    rewrite rsum_swap. apply rsum_ext. intros x Hx. rewrite rsum_scal, kpow_row by exact Hx. ring.
  Qed.

  Lemma pushes_l1 n f : l1 (pushes space K n f) <= l1 f.
  Proof.
    unfold l1. rewrite (rsum_ext _ (fun z => Rabs (rsum (fun x => f x * kpow n x z) space)))
      by (intros z Hz; f_equal; apply pushes_kpow, Hz).
    eapply Rle_trans; [apply rsum_le; intros z Hz; apply rsum_abs|]. cbn beta.
    rewrite rsum_swap. apply Req_le. apply rsum_ext. intros x Hx.
    rewrite (rsum_ext _ (fun z => Rabs (f x) * kpow n x z)).
    - rewrite rsum_scal, kpow_row by exact Hx. ring.
    - intros z Hz. rewrite Rabs_mult, (Rabs_pos_eq (kpow n x z)); [reflexivity|apply kpow_nonneg, Hx].
  Qed.

  Lemma pushes_add m n d : pushes space K (m + n) d = pushes space K n (pushes space K m d).
  Proof. revert d. induction m as [|m IH]; intros d; cbn; [reflexivity|]. apply IH. Qed.

  Lemma pushes_sub n f g z : In z space ->
    pushes space K n (fun x => f x - g x) z = pushes space K n f z - pushes space K n g z.
  Proof.
    intros Hz. rewrite !pushes_kpow by exact Hz.
    rewrite (rsum_ext _ (fun x => f x * kpow n x z + (-1) * (g x * kpow n x z))) by (intros; ring).
    rewrite rsum_plus, rsum_scal. ring.
  Qed.

  Variable w : X -> R.
  Hypothesis Hw : forall x, In x space -> 0 < w x.
  Hypothesis Hst : forall n z, In z space -> pushes space K n w z = w z.
  Variable s : X.
  Hypothesis Hs : In s space.
  Variable c : nat.
  Hypothesis Hloop : forall m, (c <= m)%nat -> 0 < kpow m s s.
  Hypothesis Hto : forall x, In x space -> exists n, 0 < kpow n x s.
  Hypothesis Hfrom : forall x, In x space -> exists n, 0 < kpow n s x.

  Lemma all_positive : exists n, (0 < n)%nat /\ forall x y, In x space -> In y space -> 0 < kpow n x y.
  Proof.
    destruct (bound_len (fun n x => 0 < kpow n x s) space Hto) as (L1 & H1).
    destruct (bound_len (fun n x => 0 < kpow n s x) space Hfrom) as (L2 & H2).
    exists (L1 + (c + L2) + 1)%nat. split; [lia|]. intros x y Hx Hy.
    destruct (H1 x Hx) as (n1 & Hn1 & Hp1). destruct (H2 y Hy) as (n2 & Hn2 & Hp2).
    replace (L1 + (c + L2) + 1)%nat with (n1 + ((L1 + (c + L2) + 1 - n1 - n2) + n2))%nat by lia.
    apply (kpow_walk _ _ x s y Hx Hs Hp1). apply (kpow_walk _ _ s s y Hs Hs); [|exact Hp2].
    apply Hloop. lia.
  Qed.

  Lemma w_total : 0 < rsum w space.
  Proof.
    eapply Rlt_le_trans; [apply (Hw s Hs)|]. apply rsum_term; [|exact Hs].
    intros x Hx. apply Rlt_le, Hw, Hx.
  Qed.

  Lemma normalised_total : rsum (normalised space w) space = 1.
  Proof.
    unfold normalised. rewrite (rsum_ext _ (fun x => / rsum w space * w x)) by (intros; unfold Rdiv; ring).
    rewrite rsum_scal. apply Rinv_l. pose proof w_total. lra.
  Qed.

  Lemma normalised_fixed n z : In z space -> pushes space K n (normalised space w) z = normalised space w z.
  Proof.
    intros Hz. rewrite pushes_kpow by exact Hz. unfold normalised at 1.
    rewrite (rsum_ext _ (fun x => / rsum w space * (w x * kpow n x z))) by (intros; unfold Rdiv; ring).
    rewrite rsum_scal, <- pushes_kpow by exact Hz. rewrite Hst by exact Hz. unfold normalised, Rdiv. ring.
  Qed.

  Theorem doeblin : mixes space K w.
  Proof.
    destruct all_positive as (k & Hk & Hp). destruct (bound_pairs _ Hp) as (e & He & Hle).
    set (q := 1 - INR (length space) * e).
    assert (Hlen : (0 < length space)%nat) by (destruct space; [destruct Hs|cbn; lia]).
    assert (Hq : 0 <= q < 1).
    { assert (0 < INR (length space) * e) by (apply Rmult_lt_0_compat; [apply lt_0_INR; exact Hlen|exact He]).
      split; [|unfold q; lra].
      assert (INR (length space) * e <= 1); [|unfold q; lra].
      rewrite <- rsum_const, <- (kpow_row k s Hs). apply rsum_le. intros y Hy. apply Hle; assumption. }
    assert (Hit : forall m r f, rsum f space = 0 -> l1 (pushes space K (m * k + r) f) <= q ^ m * l1 f).
    { induction m as [|m IH]; intros r f Hf.
      - cbn [Nat.mul Nat.add pow]. rewrite Rmult_1_l. apply pushes_l1.
      - cbn [Nat.mul]. rewrite <- Nat.add_assoc, pushes_add. cbn [pow].
        eapply Rle_trans; [apply IH; rewrite pushes_total; exact Hf|].
        rewrite (Rmult_comm q), Rmult_assoc. apply Rmult_le_compat_l; [apply pow_le; lra|].
        apply contract; [exact Hle|exact Hf]. }
    exists k, q. split; [exact Hk|]. split; [exact Hq|]. intros d n [Hd0 Hd1].
    set (f := fun x => d x - normalised space w x).
    assert (Hf : rsum f space = 0).
    { unfold f. rewrite (rsum_ext _ (fun x => d x + (-1) * normalised space w x)) by (intros; ring).
      rewrite rsum_plus, rsum_scal, Hd1, normalised_total. ring. }
    assert (E : difference space (pushes space K n d) (normalised space w) = l1 (pushes space K n f)).
    { unfold difference, l1. apply rsum_ext. intros z Hz. f_equal. unfold f.
      rewrite pushes_sub, normalised_fixed by exact Hz. reflexivity. }
    rewrite E. rewrite (Nat.div_mod n k) at 1 by lia. rewrite (Nat.mul_comm k).
    eapply Rle_trans; [apply Hit, Hf|]. rewrite (Rmult_comm 2). apply Rmult_le_compat_l; [apply pow_le; lra|].
    unfold l1, f. eapply Rle_trans.
    - apply (rsum_le _ (fun x => d x + normalised space w x)). intros x Hx.
      assert (0 <= normalised space w x).
      { unfold normalised. apply Rlt_le, Rdiv_lt_0_compat; [apply Hw, Hx|apply w_total]. }
      pose proof (Hd0 x Hx). apply Rabs_le. lra.
    - rewrite rsum_plus, Hd1, normalised_total. lra.
  Qed.
End Abstract.

(** ** Geometric convergence is convergence *)
Lemma mixes_tends {X} (space : list X) K w : mixes space K w -> tends space K w.
Proof.
  intros (k & q & Hk & Hq & H) d z Hd Hz eps Heps.
  assert (Habs : Rabs q < 1) by (rewrite Rabs_pos_eq; lra).
  destruct (pow_lt_1_zero q Habs (eps / 2)) as (N & HN); [lra|].
  exists (N * k)%nat. intros n Hn. unfold R_dist.
  eapply Rle_lt_trans.
  - apply (rsum_term (fun x => Rabs (pushes space K n d x - normalised space w x)) space z); [|exact Hz].
    intros x _. apply Rabs_pos.
  - eapply Rle_lt_trans; [apply (H d n Hd)|].
    assert (Hd' : (n / k >= N)%nat) by (apply Nat.div_le_lower_bound; lia).
    specialize (HN (n / k)%nat Hd'). rewrite Rabs_pos_eq in HN by (apply pow_le; lra). lra.
Qed.
