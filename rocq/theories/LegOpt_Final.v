(** * Proofs about the numpy optimizers: the documented rules, resets and failures *)
From Coq Require Import List Arith ZArith Bool Reals Lia Lra.
From Verif Require Import Base LegOpt_Model LegOpt_Spec LegOpt_Proofs LegOpt_Hist.
Import ListNotations.
Open Scope R_scope.
Open Scope nat_scope.

Lemma ltb_spec a b : if ltb a b then (a < b)%R else (b <= a)%R.
Proof. unfold ltb. destruct (Rlt_dec a b); lra. Qed.
Lemma leb_spec a b : if leb a b then (a <= b)%R else (b < a)%R.
Proof. unfold leb. pose proof (ltb_spec b a). destruct (ltb b a); cbn; lra. Qed.
Ltac guards := repeat match goal with
  | |- context [leb ?a ?b] => let H := fresh "G" in pose proof (leb_spec a b) as H; destruct (leb a b)
  | |- context [ltb ?a ?b] => let H := fresh "G" in pose proof (ltb_spec a b) as H; destruct (ltb a b)
  end; cbn [orb].

Lemma new_sgd_iff lr l2 d o : new_sgd lr l2 d = Ok o <-> (0 < lr /\ 0 <= l2 /\ 1 <= d)%R /\ o = Sgd lr l2 d lr.
Proof. unfold new_sgd. guards; split; intros H; try discriminate; try (destruct H; lra); inversion H; subst; split; auto; congruence. Qed.
Lemma new_momentum_iff lr b l2 o : new_momentum lr b l2 = Ok o <-> (0 < lr /\ 0 <= b <= 1 /\ 0 <= l2)%R /\ o = Momentum l2 b lr None.
Proof. unfold new_momentum. guards; split; intros H; try discriminate; try (destruct H; lra); inversion H; subst; split; auto; congruence. Qed.
Lemma new_adagrad_iff lr e o : new_adagrad lr e = Ok o <-> (0 <= lr /\ 0 < e)%R /\ o = AdaGrad lr e None.
Proof. unfold new_adagrad. guards; split; intros H; try discriminate; try (destruct H; lra); inversion H; subst; split; auto; congruence. Qed.
Lemma new_rmsprop_iff lr b e o : new_rmsprop lr b e = Ok o <-> (0 <= lr /\ 0 <= b <= 1 /\ 0 < e)%R /\ o = RmsProp lr b e None.
Proof. unfold new_rmsprop. guards; split; intros H; try discriminate; try (destruct H; lra); inversion H; subst; split; auto; congruence. Qed.
Lemma new_adadelta_iff rho e l2 o : new_adadelta rho e l2 = Ok o <-> (0 <= rho <= 1 /\ 0 < e /\ 0 <= l2)%R /\ o = AdaDelta rho e l2 None.
Proof. unfold new_adadelta. guards; split; intros H; try discriminate; try (destruct H; lra); inversion H; subst; split; auto; congruence. Qed.
Lemma new_amsgrad_iff lr b1 b2 e o : new_amsgrad lr b1 b2 e = Ok o <->
  (0 <= lr /\ 0 <= b1 <= 1 /\ 0 <= b2 <= 1 /\ 0 < e)%R /\ o = AmsGrad lr b1 b2 e None.
Proof. unfold new_amsgrad. guards; split; intros H; try discriminate; try (destruct H; lra); inversion H; subst; split; auto; congruence. Qed.
Lemma new_adamax_iff al b1 b2 e o : new_adamax al b1 b2 e = Ok o <->
  (0 <= al /\ 0 <= b1 <= 1 /\ 0 <= b2 <= 1 /\ 0 < e)%R /\ o = AdaMax al b1 b2 e None 0.
Proof. unfold new_adamax. guards; split; intros H; try discriminate; try (destruct H; lra); inversion H; subst; split; auto; congruence. Qed.

(** ** The rules *)
Lemma num_eq (a b c d : R) : a = c -> b = d -> (a, b) = (c, d).
Proof. congruence. Qed.

Lemma sgd_main lr l2 d o p gs : new_sgd lr l2 d = Ok o -> suited p gs ->
  exists path, follows o p gs path /\
  forall t k, k < size p -> entry (path (S t)) k =
    moved (entry (path t) k) (lr * d ^ S t) (nadd (grad_at gs t k) (nscale l2 (entry (path t) k))).
Proof.
  intros HN HS. apply new_sgd_iff in HN. destruct HN as (_ & ->). set (o := Sgd lr l2 d lr).
  destruct (history o p gs eq_refl I HS) as (HF & HE). exists (path_of o p gs). split; [exact HF|].
  intros t k HK. rewrite !(HE k HK). rewrite sX_S. reflexivity.
Qed.

Lemma momentum_main lr b l2 o p gs : new_momentum lr b l2 = Ok o -> suited p gs ->
  exists path, follows o p gs path /\
  forall t k, k < size p -> entry (path (S t)) k =
    moved (entry (path t) k) lr (nadd (emaN b t (fun i => grad_at gs i k)) (nscale l2 (entry (path t) k))).
Proof.
  intros HN HS. apply new_momentum_iff in HN. destruct HN as (_ & ->). set (o := Momentum l2 b lr None).
  destruct (history o p gs eq_refl I HS) as (HF & HE). exists (path_of o p gs). split; [exact HF|].
  intros t k HK. rewrite !(HE k HK). cbv zeta. set (y := fun i => grad_at gs i k). set (x := entry (a_vals p) k).
  assert (EA : sA o y x (S t) = emaN b t y).
  { unfold emaN. rewrite (surjective_pairing (sA o y x (S t))). apply num_eq.
    - refine (ema_state b (fun t => fst (sA o y x t)) (fun i => fst (y i)) eq_refl _ t). intros i. rewrite sA_S. reflexivity.
    - refine (ema_state b (fun t => snd (sA o y x t)) (fun i => snd (y i)) eq_refl _ t). intros i. rewrite sA_S. reflexivity. }
  rewrite <- EA, sX_S, sA_S. reflexivity.
Qed.

Lemma over_moved x c s g : nsub x (nover (nscale c g) (s, 0%R)) = moved x (c / s) g.
Proof. unfold nsub, nover, nscale, moved. cbn. apply num_eq; unfold Rdiv; ring. Qed.

Lemma mag2_nonneg z : (0 <= mag2 z)%R.
Proof. unfold mag2. nra. Qed.
Lemma sumR_nonneg n f : (forall i, i < n -> (0 <= f i)%R) -> (0 <= sumR n f)%R.
Proof. induction n; cbn [sumR]; intros H; [lra|]. pose proof (H n (Nat.lt_succ_diag_r n)). specialize (IHn (fun i h => H i (Nat.lt_lt_succ_r _ _ h))). lra. Qed.

Lemma adagrad_main lr e o p gs : new_adagrad lr e = Ok o -> suited p gs ->
  exists path rate, follows o p gs path /\
  forall t k, k < size p ->
    rate t k = (lr / sqrt (sumR (S t) (fun i => mag2 (grad_at gs i k)) + e))%R /\
    (rate (S t) k <= rate t k)%R /\
    entry (path (S t)) k = moved (entry (path t) k) (rate t k) (grad_at gs t k).
Proof.
  intros HN HS. apply new_adagrad_iff in HN. destruct HN as ((Hlr & He) & ->). set (o := AdaGrad lr e None).
  destruct (history o p gs eq_refl I HS) as (HF & HE). exists (path_of o p gs), (fun t k => (lr / sqrt (sumR (S t) (fun i => mag2 (grad_at gs i k)) + e))%R).
  split; [exact HF|].
  intros t k HK. split; [reflexivity|]. split.
  { set (s := sumR (S t) _).
    assert (H0 : (0 <= s)%R) by (apply sumR_nonneg; intros; apply mag2_nonneg).
    change (sumR (S (S t)) (fun i => mag2 (grad_at gs i k))) with (s + mag2 (grad_at gs (S t) k))%R.
    pose proof (mag2_nonneg (grad_at gs (S t) k)) as HM.
    unfold Rdiv. apply Rmult_le_compat_l; [exact Hlr|]. apply Rinv_le_contravar.
    - apply sqrt_lt_R0. lra.
    - apply sqrt_le_1_alt. lra. }
  rewrite !(HE k HK). cbv zeta. set (y := fun i => grad_at gs i k). set (x := entry (a_vals p) k).
  assert (EA : forall t, fst (sA o y x t) = sumR t (fun i => mag2 (y i))).
  { intros j. induction j as [|i IH]; [reflexivity|]. rewrite sA_S. cbn [stepA o nadd fst]. rewrite IH. reflexivity. }
  rewrite sX_S. cbn [stepD o]. rewrite over_moved. fold o. rewrite <- sA_S, (EA (S t)). reflexivity.
Qed.

Lemma rmsprop_main lr b e o p gs : new_rmsprop lr b e = Ok o -> suited p gs ->
  exists path, follows o p gs path /\
  forall t k, k < size p -> entry (path (S t)) k =
    moved (entry (path t) k) (lr / sqrt (ema b t (fun i => mag2 (grad_at gs i k)) + e)) (grad_at gs t k).
Proof.
  intros HN HS. apply new_rmsprop_iff in HN. destruct HN as (_ & ->). set (o := RmsProp lr b e None).
  destruct (history o p gs eq_refl I HS) as (HF & HE). exists (path_of o p gs). split; [exact HF|].
  intros t k HK. rewrite !(HE k HK). cbv zeta. set (y := fun i => grad_at gs i k). set (x := entry (a_vals p) k).
  assert (EA : fst (sA o y x (S t)) = ema b t (fun i => mag2 (y i))).
  { refine (ema_state b (fun t => fst (sA o y x t)) (fun i => mag2 (y i)) eq_refl _ t). intros i. rewrite sA_S. reflexivity. }
  rewrite sX_S. cbn [stepD o]. rewrite over_moved. fold o. rewrite <- sA_S, EA. reflexivity.
Qed.

(** squares of the steps made before update [t], averaged *)
Lemma adadelta_main rho e l2 o p gs : new_adadelta rho e l2 = Ok o -> suited p gs ->
  exists path, follows o p gs path /\
  forall t k, k < size p ->
    let steps := match t with O => 0%R | S t' => ema rho t' (fun i => mag2 (nsub (entry (path i) k) (entry (path (S i)) k))) end in
    entry (path (S t)) k =
    moved (entry (path t) k) (sqrt (steps + e) / sqrt (ema rho t (fun i => mag2 (grad_at gs i k)) + e)) (grad_at gs t k).
Proof.
  intros HN HS. apply new_adadelta_iff in HN. destruct HN as (_ & ->). set (o := AdaDelta rho e l2 None).
  destruct (history o p gs eq_refl I HS) as (HF & HE). exists (path_of o p gs). split; [exact HF|].
  intros t k HK. set (y := fun i => grad_at gs i k). set (x := entry (a_vals p) k).
  assert (EX : forall i, entry (path_of o p gs i) k = sX o y x i) by (intros i; exact (HE k HK i)).
  assert (EB : match t with O => 0%R | S t' => ema rho t' (fun i => mag2 (nsub (entry (path_of o p gs i) k) (entry (path_of o p gs (S i)) k))) end
    = fst (sB o y x t)).
  { destruct t as [|t']; [reflexivity|]. symmetry.
    refine (ema_state rho (fun t => fst (sB o y x t)) (fun i => mag2 (nsub (entry (path_of o p gs i) k) (entry (path_of o p gs (S i)) k))) eq_refl _ t').
    intros i. rewrite !EX, sX_S, sB_S. cbn [stepB o]. fold o. cbn [nadd nscale fst]. do 3 f_equal.
    destruct (sX o y x i) as [u v]. destruct (stepD o i _ _ _ _) as [u' v']. unfold nsub. cbn. apply num_eq; ring. }
  cbv zeta. rewrite EB, !EX.
  assert (EA : fst (sA o y x (S t)) = ema rho t (fun i => mag2 (y i))).
  { refine (ema_state rho (fun t => fst (sA o y x t)) (fun i => mag2 (y i)) eq_refl _ t). intros i. rewrite sA_S. reflexivity. }
  rewrite sX_S. cbn [stepD o]. fold o. rewrite <- sA_S, EA.
  unfold nsub, nover, ntimes, moved. cbn. apply num_eq; unfold y, Rdiv; ring.
Qed.

Lemma amsgrad_main lr b1 b2 e o p gs : new_amsgrad lr b1 b2 e = Ok o -> suited p gs ->
  exists path v, follows o p gs path /\
  forall t k, k < size p ->
    v t k = ams b2 t (fun i => mag2 (grad_at gs i k)) /\ (0 <= v t k <= v (S t) k)%R /\
    entry (path (S t)) k =
    moved (entry (path t) k) (lr / sqrt (v t k + e)) (emaN b1 t (fun i => grad_at gs i k)).
Proof.
  intros HN HS. apply new_amsgrad_iff in HN. destruct HN as (_ & ->). set (o := AmsGrad lr b1 b2 e None).
  destruct (history o p gs eq_refl I HS) as (HF & HE).
  exists (path_of o p gs), (fun t k => ams b2 t (fun i => mag2 (grad_at gs i k))). split; [exact HF|].
  intros t k HK. split; [reflexivity|]. split.
  { split; [|cbn [ams]; apply Rmax_l].
    induction t as [|i IH]; cbn [ams]; [apply Rmax_l|]. eapply Rle_trans; [exact IH|]. apply Rmax_l. }
  rewrite !(HE k HK). cbv zeta. set (y := fun i => grad_at gs i k). set (x := entry (a_vals p) k).
  assert (EA : sA o y x (S t) = emaN b1 t y).
  { unfold emaN. rewrite (surjective_pairing (sA o y x (S t))). apply num_eq.
    - refine (ema_state b1 (fun t => fst (sA o y x t)) (fun i => fst (y i)) eq_refl _ t). intros i. rewrite sA_S. reflexivity.
    - refine (ema_state b1 (fun t => snd (sA o y x t)) (fun i => snd (y i)) eq_refl _ t). intros i. rewrite sA_S. reflexivity. }
  assert (EB : forall t, fst (sB o y x (S t)) = ams b2 t (fun i => mag2 (y i))).
  { intros j. induction j as [|i IH]; rewrite sB_S; cbn [stepB o nmax nadd nscale fst].
    - change (sB (AmsGrad lr b1 b2 e None) y x 0) with (0, 0)%R. cbn [fst ams]. apply f_equal2; [reflexivity|]. unfold y. cbn. ring.
    - fold o. rewrite IH. reflexivity. }
  rewrite sX_S. cbn [stepD o]. fold o. rewrite over_moved, <- sA_S, EA.
  change (ams b2 t (fun i => mag2 (grad_at gs i k))) with (ams b2 t (fun i => mag2 (y i))). rewrite <- (EB t), sB_S. reflexivity.
Qed.

Lemma Rmax_dec a b : {Rmax a b = a} + {Rmax a b = b}.
Proof. unfold Rmax. destruct (Rle_dec a b); auto. Qed.
Lemma largest_step eps b2 t f u g : (0 < eps)%R -> (0 <= b2 <= 1)%R ->
  largest eps t (fun i => b2 ^ (t - i) * f i)%R u -> g = f (S t) ->
  largest eps (S t) (fun i => b2 ^ (S t - i) * f i)%R (Rmax (Rmax g (b2 * u)) eps).
Proof.
  intros He Hb (L1 & L2 & L3) ->. set (r := Rmax (Rmax (f (S t)) (b2 * u)) eps).
  assert (R1 : (f (S t) <= r)%R) by (unfold r; eapply Rle_trans; [apply Rmax_l|apply Rmax_l]).
  assert (R2 : (b2 * u <= r)%R) by (unfold r; eapply Rle_trans; [apply Rmax_r|apply Rmax_l]).
  assert (R3 : (eps <= r)%R) by apply Rmax_r.
  split; [exact R3|]. split.
  - intros i Hi. destruct (Nat.eq_dec i (S t)) as [->|NE].
    + rewrite Nat.sub_diag. cbn [pow]. rewrite Rmult_1_l. exact R1.
    + replace (S t - i) with (S (t - i)) by lia. cbn [pow]. eapply Rle_trans; [|exact R2].
      rewrite Rmult_assoc. apply Rmult_le_compat_l; [lra|]. apply L2. lia.
  - assert (C : r = eps \/ r = f (S t) \/ r = (b2 * u)%R).
    { unfold r. destruct (Rmax_dec (Rmax (f (S t)) (b2 * u)) eps) as [E|E]; rewrite E; [|left; reflexivity].
      destruct (Rmax_dec (f (S t)) (b2 * u)) as [E'|E']; rewrite E'; auto. }
    destruct C as [C|[C|C]]; [left; exact C| |].
    + right. exists (S t). split; [lia|]. rewrite Nat.sub_diag. cbn [pow]. rewrite Rmult_1_l. exact C.
    + destruct L3 as [L3|(i & Hi & L3)].
      * left. subst u. rewrite C in R3 |- *. apply Rle_antisym; [|exact R3].
        rewrite <- (Rmult_1_l eps) at 2. apply Rmult_le_compat_r; lra.
      * right. exists i. split; [lia|]. rewrite C, L3. replace (S t - i) with (S (t - i)) by lia. cbn [pow]. ring.
Qed.

Lemma adamax_main al b1 b2 e o p gs : new_adamax al b1 b2 e = Ok o -> (b1 < 1)%R -> suited p gs ->
  exists path, follows o p gs path /\
  forall t k, k < size p -> exists u,
    largest e t (fun i => b2 ^ (t - i) * mag (grad_at gs i k))%R u /\
    entry (path (S t)) k =
    moved (entry (path t) k) (al / (1 - b1 ^ S t) / u) (emaN b1 t (fun i => grad_at gs i k)).
Proof.
  intros HN HB HS. apply new_adamax_iff in HN. destruct HN as ((_ & Hb1 & Hb2 & He) & ->). set (o := AdaMax al b1 b2 e None 0).
  destruct (history o p gs eq_refl (conj (proj1 Hb1) HB) HS) as (HF & HE).
  exists (path_of o p gs). split; [exact HF|].
  intros t k HK. set (y := fun i => grad_at gs i k). set (x := entry (a_vals p) k). exists (fst (sB o y x (S t))). split.
  - induction t as [|i IH]; rewrite sB_S; cbn [stepB o nmax nadd nscale fst].
    + change (sB (AdaMax al b1 b2 e None 0) y x 0) with (0, 0)%R. cbn [fst]. rewrite Rmult_0_r.
      assert (HM : (0 <= mag (y 0%nat))%R) by apply sqrt_pos.
      rewrite (Rmax_left (mag (y 0)) 0) by exact HM.
      split; [apply Rmax_r|]. split.
      * intros i Hi. assert (i = 0) by lia. subst i. cbn. rewrite Rmult_1_l. apply Rmax_l.
      * destruct (Rmax_dec (mag (y 0%nat)) e) as [E|E]; rewrite E; [|left; reflexivity].
        right. exists 0. split; [lia|]. cbn. rewrite Rmult_1_l. reflexivity.
    + fold o. refine (largest_step e b2 i (fun i => mag (y i)) _ _ He Hb2 IH eq_refl).
  - rewrite !(HE k HK). cbv zeta. fold y x.
    assert (EA : sA o y x (S t) = emaN b1 t y).
    { unfold emaN. rewrite (surjective_pairing (sA o y x (S t))). apply num_eq.
      - refine (ema_state b1 (fun t => fst (sA o y x t)) (fun i => fst (y i)) eq_refl _ t). intros i. rewrite sA_S. reflexivity.
      - refine (ema_state b1 (fun t => snd (sA o y x t)) (fun i => snd (y i)) eq_refl _ t). intros i. rewrite sA_S. reflexivity. }
    rewrite sX_S. cbn [stepD o]. fold o. rewrite over_moved, <- sA_S, EA, sB_S. reflexivity.
Qed.
