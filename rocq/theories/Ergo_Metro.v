From Coq Require Import List ZArith Reals Arith Lra Lia.
From Verif Require Import Balance_Model Balance_Spec Balance_Proofs Rules_Proofs Ergo_Spec Ergo_Proofs.
Import ListNotations.
Open Scope R_scope.

Section Walks.
  Context {X : Type}.
  Variable space : list X.
  Variable T : X -> X -> R.

  Lemma walk_in n x y : walk space T n x y -> In x space /\ In y space.
  Proof. induction 1 as [x Hx|n x y z Hx Hy H1 H2 Hw IH]; [auto|]. split; [exact Hx|apply IH]. Qed.

  Lemma walk_app m n x y z : walk space T m x y -> walk space T n y z -> walk space T (m + n) x z.
  Proof.
    induction 1 as [x Hx|m x u y Hx Hu H1 H2 Hw IH]; intros Hz; [exact Hz|].
    cbn. apply (walk_cons space T _ x u z); auto.
  Qed.

  Lemma walk_one x y : In x space -> In y space -> 0 < T x y -> 0 < T y x -> walk space T 1 x y.
  Proof. intros Hx Hy H1 H2. apply (walk_cons space T 0 x y y); auto. constructor. exact Hy. Qed.

  Lemma walk_sym n x y : walk space T n x y -> walk space T n y x.
  Proof.
    induction 1 as [x Hx|n x u y Hx Hu H1 H2 Hw IH]; [constructor; exact Hx|].
    replace (S n) with (n + 1)%nat by lia. apply (walk_app n 1 y u x IH). apply walk_one; assumption.
  Qed.

  (** A quantity that differs at the ends differs across some step. *)
  Lemma walk_changes (f : X -> R) n x y : walk space T n x y -> f x <> f y ->
    exists u v, In u space /\ In v space /\ 0 < T u v /\ 0 < T v u /\ f v < f u.
  Proof.
    induction 1 as [x Hx|n x u y Hx Hu H1 H2 Hw IH]; intros Hne; [congruence|].
    destruct (Rtotal_order (f x) (f u)) as [Hlt|[E|Hgt]].
    - exists u, x. auto.
    - apply IH. congruence.
    - exists x, u. auto.
  Qed.

  (** A sign that every step flips is that of the number of steps. *)
  Lemma walk_parity (p : X -> bool) n x y :
    (forall u v, In u space -> In v space -> 0 < T u v -> p v = negb (p u)) ->
    walk space T n x y -> p y = xorb (Nat.odd n) (p x).
  Proof.
    intros Hp. induction 1 as [x Hx|n x u y Hx Hu H1 H2 Hw IH]; [destruct (p x); reflexivity|].
    rewrite IH, (Hp x u) by assumption. rewrite Nat.odd_succ, <- Nat.negb_odd.
    destruct (Nat.odd n), (p x); reflexivity.
  Qed.
End Walks.

Section Metro.
  Context {X : Type}.
  Variable eqd : forall x y : X, {x = y} + {x <> y}.
  Variable space : list X.
  Hypothesis Hnd : NoDup space.
  Variable psi : X -> R.
  Variable mp : Z.
  Variable corr : X -> X -> option ext.
  Variable T a : X -> X -> R.
  Hypothesis HT : proposal space T.
  Hypothesis Hc : corrected space T corr.
  Hypothesis Ha : forall x y, In x space -> In y space -> probability_of (accepts psi mp corr x y) (a x y).
  Notation pi := (target psi mp).
  Notation K := (kernel eqd space T a).
  Notation kp := (kpow eqd space K).

  Let K0 : forall x y, In x space -> In y space -> 0 <= K x y.
  Proof. intros x y Hx _. apply (kernel_nonneg eqd space psi mp corr T a HT Ha x y Hx). Qed.
  Let K1 : forall x, In x space -> rsum (K x) space = 1.
  Proof. intros x Hx. apply (kernel_row eqd space Hnd T a HT x Hx). Qed.

  Lemma a_01 x y : In x space -> In y space -> 0 <= a x y <= 1.
  Proof. intros Hx Hy. apply (Ha x y Hx Hy). Qed.

  Lemma a_pos x y : In x space -> In y space -> 0 < T x y -> 0 < T y x -> 0 < a x y.
  Proof.
    intros Hx Hy H1 H2. rewrite (accept_ratio space psi mp corr T a HT Hc Ha x y Hx Hy H1).
    apply Rmin_glb_lt; [lra|]. pose proof (tpos psi mp x). pose proof (tpos psi mp y).
    apply Rdiv_lt_0_compat; apply Rmult_lt_0_compat; assumption.
  Qed.

  Lemma a_zero x y : In x space -> In y space -> 0 < T x y -> 0 < a x y -> 0 < T y x.
  Proof.
    intros Hx Hy H1 H2. rewrite (accept_ratio space psi mp corr T a HT Hc Ha x y Hx Hy H1) in H2.
    destruct (Rle_lt_or_eq_dec _ _ (proj1 HT y x Hy Hx)) as [Hlt|E]; [exact Hlt|].
    rewrite <- E in H2. replace (pi y * 0 / (pi x * T x y)) with 0 in H2 by (unfold Rdiv; ring).
    rewrite Rmin_right in H2 by lra. lra.
  Qed.

  Lemma kernel_term x z : In x space -> forall y, In y space ->
    0 <= T x y * (a x y * (if eqd y z then 1 else 0) + (1 - a x y) * (if eqd x z then 1 else 0)).
  Proof.
    intros Hx y Hy. pose proof (a_01 x y Hx Hy). pose proof (proj1 HT x y Hx Hy).
    apply Rmult_le_pos; [assumption|]. destruct (eqd y z), (eqd x z); lra.
  Qed.

  Lemma K_edge x y : In x space -> In y space -> 0 < T x y -> 0 < T y x -> 0 < K x y.
  Proof.
    intros Hx Hy H1 H2. eapply Rlt_le_trans; [|apply (rsum_term _ space y (kernel_term x y Hx) Hy)].
    destruct (eqd y y) as [_|n]; [|congruence]. pose proof (a_pos x y Hx Hy H1 H2). pose proof (a_01 x y Hx Hy).
    apply Rmult_lt_0_compat; [exact H1|]. destruct (eqd x y); lra.
  Qed.

  Lemma K_reject x y : In x space -> In y space -> 0 < T x y -> a x y < 1 -> 0 < K x x.
  Proof.
    intros Hx Hy H1 H2. eapply Rlt_le_trans; [|apply (rsum_term _ space y (kernel_term x x Hx) Hy)].
    destruct (eqd x x) as [_|n]; [|congruence]. pose proof (a_01 x y Hx Hy).
    apply Rmult_lt_0_compat; [exact H1|]. destruct (eqd y x); lra.
  Qed.

  Lemma reject_iff x y : In x space -> In y space ->
    (a x y < 1 <-> exists u, 0 <= u < 1 /\ ~ accepts psi mp corr x y u).
  Proof.
    intros Hx Hy. destruct (Ha x y Hx Hy) as [Hr H]. split.
    - intros Hlt. exists (a x y). split; [lra|]. intros Hacc. apply H in Hacc; lra.
    - intros (u & Hu & Hn). destruct (Rlt_dec (a x y) 1) as [|Hge]; [assumption|]. exfalso. apply Hn, H; lra.
  Qed.

  Lemma reject_at x y : In x space -> In y space -> 0 < T x y -> a x y < 1 ->
    may_reject space T (accepts psi mp corr).
  Proof.
    intros Hx Hy Hp Hlt. exists x, y. split; [exact Hx|]. split; [exact Hy|]. split; [exact Hp|].
    apply (reject_iff x y Hx Hy), Hlt.
  Qed.

  Lemma K_pos_inv x y : In x space -> In y space -> 0 < K x y ->
    (0 < T x y /\ 0 < T y x) \/ (x = y /\ may_reject space T (accepts psi mp corr)).
  Proof.
    intros Hx Hy H. unfold kernel in H. apply rsum_pos_ex in H. destruct H as (v & Hv & Hp).
    pose proof (proj1 HT x v Hx Hv) as HTv. pose proof (a_01 x v Hx Hv) as Hav.
    destruct (Rle_lt_or_eq_dec _ _ HTv) as [HTp|E]; [|rewrite <- E in Hp; lra].
    destruct (Rlt_dec (a x v) 1) as [Hlt|Hge].
    - destruct (eqd x y) as [->|Hne].
      + right. split; [reflexivity|]. apply (reject_at y v); assumption.
      + destruct (eqd v y) as [->|]; [|rewrite Rmult_0_r, Rmult_0_r, Rplus_0_r, Rmult_0_r in Hp; lra].
        left. split; [exact HTp|]. apply (a_zero x y Hx Hy HTp).
        destruct (Rle_lt_or_eq_dec _ _ (proj1 Hav)) as [|E]; [assumption|]. rewrite <- E in Hp. lra.
    - assert (E1 : a x v = 1) by lra. rewrite E1 in Hp.
      destruct (eqd v y) as [->|]; [|exfalso; destruct (eqd x y); lra].
      left. split; [exact HTp|]. apply (a_zero x y Hx Hy HTp). lra.
  Qed.

  Lemma walk_kpow n x y : walk space T n x y -> 0 < kp n x y.
  Proof.
    induction 1 as [x Hx|n x u y Hx Hu H1 H2 Hw IH].
    - cbn. destruct (eqd x x); [lra|congruence].
    - change (S n) with (1 + n)%nat. apply (kpow_walk eqd space K K0 1 n x u y Hx Hu); [|exact IH].
      rewrite kpow_one by assumption. apply K_edge; assumption.
  Qed.

  Lemma kpow_inv n : forall x y, In x space -> In y space -> 0 < kp n x y ->
    (exists m, walk space T m x y) /\
    (walk space T n x y \/ may_reject space T (accepts psi mp corr)).
  Proof.
    induction n as [|n IH]; intros x y Hx Hy H; cbn [kpow] in H.
    - destruct (eqd x y) as [->|]; [|lra]. split; [exists 0%nat|left]; constructor; exact Hy.
    - apply rsum_pos_ex in H. destruct H as (v & Hv & Hp).
      pose proof (K0 x v Hx Hv) as HK. pose proof (kpow_nonneg eqd space K K0 n v y Hv) as Hk.
      assert (HK' : 0 < K x v) by (destruct (Rle_lt_or_eq_dec _ _ HK) as [|E]; [assumption|rewrite <- E in Hp; lra]).
      assert (Hk' : 0 < kp n v y) by (destruct (Rle_lt_or_eq_dec _ _ Hk) as [|E]; [assumption|rewrite <- E in Hp; lra]).
      destruct (IH v y Hv Hy Hk') as [(m & Hm) Hor].
      destruct (K_pos_inv x v Hx Hv HK') as [[H1 H2]|[-> Hrej]].
      + split; [exists (S m); apply (walk_cons space T m x v y); assumption|].
        destruct Hor as [Hw|Hr]; [left; apply (walk_cons space T n x v y); assumption|right; exact Hr].
      + split; [exists m; exact Hm|right; exact Hrej].
  Qed.

  Lemma self_loops x : In x space -> 0 < K x x -> forall m, 0 < kp m x x.
  Proof.
    intros Hx Hp. induction m as [|m IH]; [cbn; destruct (eqd x x); [lra|congruence]|].
    change (S m) with (1 + m)%nat. apply (kpow_walk eqd space K K0 1 m x x x Hx Hx); [|exact IH].
    rewrite kpow_one by assumption. exact Hp.
  Qed.

  Lemma twice x : In x space -> 0 < kp 2 x x -> forall j, 0 < kp (2 * j) x x.
  Proof.
    intros Hx Hp. induction j as [|j IH]; [cbn; destruct (eqd x x); [lra|congruence]|].
    replace (2 * S j)%nat with (2 + 2 * j)%nat by lia.
    apply (kpow_walk eqd space K K0 2 (2 * j) x x x Hx Hx); assumption.
  Qed.

  Lemma mixes_if : connected space T ->
    odd_return space T \/ may_reject space T (accepts psi mp corr) -> mixes space K pi.
  Proof.
    intros Hcon Hap.
    assert (Hs : exists s c, In s space /\ forall m, (c <= m)%nat -> 0 < kp m s s).
    { destruct Hap as [(s & n & Hodd & Hw)|(s & y & Hs & Hy & Hp & Hrej)].
      - exists s, n. pose proof (walk_in _ _ _ _ _ Hw) as [Hs _]. split; [exact Hs|].
        assert (H2 : 0 < kp 2 s s).
        { destruct Hodd as (j & Ej). destruct n as [|n]; [lia|].
          inversion Hw as [|? ? u ? Hx Hu H1 H2 Hrest]; subst.
          apply (walk_kpow 2 s s). apply (walk_cons space T 1 s u s); auto. apply walk_one; auto. }
        intros m Hm. destruct (Nat.Even_or_Odd m) as [(j & ->)|(j & ->)]; [apply twice; assumption|].
        destruct Hodd as (i & Ei). replace (2 * j + 1)%nat with (n + 2 * (j - i))%nat by lia.
        apply (kpow_walk eqd space K K0 _ _ s s s Hs Hs); [apply walk_kpow, Hw|apply twice; assumption].
      - exists s, 0%nat. split; [exact Hs|]. intros m _. apply self_loops; [exact Hs|].
        apply (K_reject s y Hs Hy Hp). apply reject_iff; assumption. }
    destruct Hs as (s & c & Hs & Hloop).
    apply (doeblin eqd space Hnd K K0 K1 pi) with (s := s) (c := c).
    - intros x _. apply tpos.
    - intros n z Hz. apply (pushes_target eqd space Hnd psi mp corr T a HT Hc Ha n z Hz).
    - exact Hs.
    - exact Hloop.
    - intros x Hx. destruct (Hcon x s Hx Hs) as (n & Hn). exists n. apply walk_kpow, Hn.
    - intros x Hx. destruct (Hcon s x Hs Hx) as (n & Hn). exists n. apply walk_kpow, Hn.
  Qed.

  Lemma delta_distribution s : In s space -> distribution space (fun x => if eqd x s then 1 else 0).
  Proof.
    intros Hs. split; [intros x _; destruct (eqd x s); lra|].
    rewrite (rsum_ext _ (fun x => (fun _ => 1) x * (if eqd x s then 1 else 0))) by (intros; ring).
    apply (rsum_delta eqd (fun _ => 1)); assumption.
  Qed.

  Lemma tends_kpow x y : tends space K pi -> In x space -> In y space ->
    exists N, forall n, (N <= n)%nat -> 0 < kp n x y.
  Proof.
    intros Ht Hx Hy. assert (Hpos : 0 < normalised space pi y).
    { unfold normalised. apply Rdiv_lt_0_compat; [apply tpos|].
      eapply Rlt_le_trans; [apply (tpos psi mp x)|]. apply rsum_term; [|exact Hx].
      intros z _. apply Rlt_le, tpos. }
    destruct (Ht _ y (delta_distribution x Hx) Hy (normalised space pi y) Hpos) as (N & HN).
    exists N. intros n Hn. specialize (HN n Hn). unfold R_dist in HN.
    rewrite (pushes_kpow eqd space Hnd K n _ y Hy) in HN.
    rewrite (rsum_ext _ (fun z => kp n z y * (if eqd z x then 1 else 0))) in HN by (intros; ring).
    rewrite (rsum_delta eqd (fun z => kp n z y)) in HN by assumption.
    apply Rabs_def2 in HN. lra.
  Qed.

  Lemma tends_only_if : space <> [] -> tends space K pi ->
    connected space T /\ (odd_return space T \/ may_reject space T (accepts psi mp corr)).
  Proof.
    intros Hne Ht. split.
    - intros x y Hx Hy. destruct (tends_kpow x y Ht Hx Hy) as (N & HN).
      apply (kpow_inv N x y Hx Hy (HN N (le_n N))).
    - destruct space as [|s l] eqn:E; [congruence|].
      assert (Hs : In s space) by (rewrite E; left; reflexivity). rewrite <- E in *.
      destruct (tends_kpow s s Ht Hs Hs) as (N & HN).
      destruct (kpow_inv (2 * N + 1) s s Hs Hs) as [_ [Hw|Hr]]; [apply HN; lia| |right; exact Hr].
      left. exists s, (2 * N + 1)%nat. split; [exists N; lia|exact Hw].
  Qed.

  (** With symmetric proposals a downhill proposal may be turned down. *)
  Lemma downhill x y : In x space -> In y space -> 0 < T x y -> T y x = T x y -> pi y < pi x -> a x y < 1.
  Proof.
    intros Hx Hy Hp Hsym Hlt. rewrite (accept_ratio space psi mp corr T a HT Hc Ha x y Hx Hy Hp).
    eapply Rle_lt_trans; [apply Rmin_r|]. rewrite Hsym. pose proof (tpos psi mp x). pose proof (tpos psi mp y).
    apply (Rmult_lt_reg_r (pi x * T x y)); [apply Rmult_lt_0_compat; assumption|].
    unfold Rdiv. rewrite Rmult_assoc, Rinv_l, Rmult_1_r, Rmult_1_l.
    - apply Rmult_lt_compat_r; assumption.
    - apply Rgt_not_eq, Rmult_lt_0_compat; assumption.
  Qed.

  Lemma uphill x y : In x space -> In y space -> 0 < T x y -> T y x = T x y -> pi x = pi y -> a x y = 1.
  Proof.
    intros Hx Hy Hp Hsym E. rewrite (accept_ratio space psi mp corr T a HT Hc Ha x y Hx Hy Hp).
    rewrite Hsym, E. unfold Rdiv. rewrite Rinv_r; [apply Rmin_left; lra|].
    apply Rgt_not_eq, Rmult_lt_0_compat; [apply tpos|exact Hp].
  Qed.
End Metro.
