(** * Proofs about the categorical choice and the direct sampler *)
From Coq Require Import List Arith ZArith QArith Bool Lia Lqa.
From Verif Require Import Base BaseFacts ARSamp_Model ARSamp_Spec.
Import ListNotations.
Open Scope Q_scope.

Lemma Qgtb_iff r c : Qgtb r c = true <-> c < r.
Proof.
  unfold Qgtb. rewrite negb_true_iff. split; intros H.
  - destruct (Qlt_le_dec c r) as [|H']; [assumption|]. apply Qle_bool_iff in H'. congruence.
  - destruct (Qle_bool r c) eqn:E; [|reflexivity]. apply Qle_bool_iff in E. lra.
Qed.

Lemma cumsum_length acc p : length (cumsum acc p) = length p.
Proof. revert acc; induction p; intros acc; cbn [cumsum length]; [reflexivity|]. rewrite IHp. reflexivity. Qed.

Lemma cumsum_nth p : forall acc i, (i < length p)%nat ->
  nth i (cumsum acc p) 0 == acc + qsum (firstn (S i) p).
Proof.
  induction p as [|x p IH]; intros acc i Hi; cbn [length] in Hi; [lia|].
  destruct i as [|i]; cbn [cumsum nth firstn qsum].
  - ring.
  - rewrite IH by lia. cbn [firstn]. ring.
Qed.

Lemma cumsum_last p : forall acc, p <> [] -> last (cumsum acc p) 0 == acc + qsum p.
Proof.
  induction p as [|x p IH]; intros acc Hp; [congruence|].
  destruct p as [|y p].
  - cbn. ring.
  - change (last (cumsum acc (x :: y :: p)) 0) with (last (cumsum (acc + x) (y :: p)) 0).
    rewrite IH by discriminate. cbn [qsum]. ring.
Qed.

Lemma qsum_nonneg p : Forall (fun x => 0 <= x) p -> 0 <= qsum p.
Proof. induction 1; cbn [qsum]; lra. Qed.
Lemma qsum_app a b : qsum (a ++ b) == qsum a + qsum b.
Proof. induction a as [|x a IH]; cbn [app qsum]; [ring|]. rewrite IH. ring. Qed.

Lemma Forall_firstn {A} (P : A -> Prop) n l : Forall P l -> Forall P (firstn n l).
Proof.
  intros H. apply Forall_forall. intros x Hx. rewrite Forall_forall in H. apply H.
  rewrite <- (firstn_skipn n l). apply in_or_app. left. exact Hx.
Qed.

Lemma qsum_firstn_S p i : (i < length p)%nat -> qsum (firstn (S i) p) == qsum (firstn i p) + nth i p 0.
Proof.
  revert i; induction p as [|x p IH]; intros i Hi; cbn [length] in Hi; [lia|].
  destruct i as [|i]; [cbn; ring|]. cbn [nth]. rewrite !firstn_cons. cbn [qsum].
  rewrite IH by lia. ring.
Qed.

Lemma qsum_firstn_mono p i j : Forall (fun x => 0 <= x) p -> (i <= j)%nat ->
  qsum (firstn i p) <= qsum (firstn j p).
Proof.
  intros Hp Hij.
  assert (E : firstn j p = firstn i p ++ firstn (j - i) (skipn i p)).
  { rewrite firstn_skipn_comm. replace (i + (j - i))%nat with j by lia.
    rewrite <- (firstn_skipn i (firstn j p)) at 1. f_equal. rewrite firstn_firstn. f_equal. lia. }
  rewrite E, qsum_app.
  assert (0 <= qsum (firstn (j - i) (skipn i p))).
  { apply qsum_nonneg, Forall_firstn. apply Forall_forall. intros x Hx. rewrite Forall_forall in Hp.
    apply Hp. rewrite <- (firstn_skipn i p). apply in_or_app. right. exact Hx. }
  lra.
Qed.

(** counting the entries below [r] of a non-decreasing list *)
Lemma count_sorted (f : nat -> bool) n i :
  (forall a b, (a <= b < n)%nat -> f b = true -> f a = true) -> (i <= n)%nat ->
  (length (filter f (seq 0 n)) = i <->
   (forall j, (j < i)%nat -> f j = true) /\ (forall j, (i <= j < n)%nat -> f j = false)).
Proof.
  revert i. induction n as [|n IH]; intros i Hm Hi.
  - cbn. split; [intros <-; split; intros; lia|intros; lia].
  - rewrite seq_S, filter_app, app_length. cbn [filter Nat.add].
    assert (Hm' : forall a b, (a <= b < n)%nat -> f b = true -> f a = true).
    { intros a b Hab. apply Hm. lia. }
    assert (Hle : (length (filter f (seq 0 n)) <= n)%nat).
    { rewrite <- (seq_length n 0) at 2. clear. induction (seq 0 n) as [|x l IH]; cbn; [lia|].
      destruct (f x); cbn; lia. }
    destruct (f n) eqn:En; cbn [length].
    + assert (Hall : length (filter f (seq 0 n)) = n).
      { apply (IH n Hm' (le_n n)). split; intros j Hj; [|lia]. apply (Hm j n); [lia|exact En]. }
      rewrite Hall. split.
      * intros E. split; intros j Hj; [|lia]. apply (Hm j n); [lia|exact En].
      * intros [_ H2]. destruct (Nat.eq_dec i (S n)) as [->|Hne]; [lia|].
        specialize (H2 n ltac:(lia)). congruence.
    + rewrite Nat.add_0_r. destruct (Nat.eq_dec i (S n)) as [->|Hne].
      * split; [intros; lia|]. intros [H1 _]. specialize (H1 n ltac:(lia)). congruence.
      * rewrite (IH i Hm' ltac:(lia)). split; intros [H1 H2]; split; auto; intros j Hj.
        -- destruct (Nat.eq_dec j n) as [->|]; [exact En|apply H2; lia].
        -- apply H2. lia.
Qed.

Lemma filter_map_S (g : nat -> bool) m :
  length (filter g (map S m)) = length (filter (fun i => g (S i)) m).
Proof. induction m as [|y m IH]; [reflexivity|]. cbn [map filter]. destruct (g (S y)); cbn [length]; rewrite IH; reflexivity. Qed.

Lemma filter_nth_seq {A} (f : A -> bool) l d :
  length (filter f l) = length (filter (fun i => f (nth i l d)) (seq 0 (length l))).
Proof.
  induction l as [|x l IH]; [reflexivity|]. cbn [length seq]. rewrite <- seq_shift.
  set (g := fun i => f (nth i (x :: l) d)).
  change (length (filter f (x :: l)) = length (if g O then O :: filter g (map S (seq 0 (length l)))
                                              else filter g (map S (seq 0 (length l))))).
  change (filter f (x :: l)) with (if f x then x :: filter f l else filter f l).
  change (g O) with (f x).
  destruct (f x); cbn [length]; rewrite filter_map_S, IH; reflexivity.
Qed.

Lemma scale_lt a b t : 0 < t -> (a < t * b <-> a / t < b).
Proof.
  intros Ht. split; intros H.
  - apply Qlt_shift_div_r; [exact Ht|]. rewrite Qmult_comm. exact H.
  - assert (E : a == t * (a / t)) by (field; lra). rewrite E. apply Qmult_lt_l; assumption.
Qed.
Lemma scale_le a b t : 0 < t -> (t * b <= a <-> b <= a / t).
Proof.
  intros Ht. split; intros H.
  - apply Qle_shift_div_l; [exact Ht|]. rewrite Qmult_comm. exact H.
  - assert (E : a == t * (a / t)) by (field; lra). rewrite E. apply Qmult_le_l; assumption.
Qed.

Lemma weights_ne p : weights p -> p <> [].
Proof. intros [_ H] ->. cbn in H. lra. Qed.

Lemma choice_spec p u i : weights p -> draw u -> (i < length p)%nat ->
  (choice_index p u = i <-> selects p i u).
Proof.
  intros Hw Hu Hi. pose proof Hw as [Hp Hs]. pose proof (weights_ne p Hw) as Hne.
  unfold choice_index. set (r := last (cumsum 0 p) 0 * u).
  assert (Hr : r == qsum p * u).
  { unfold r. rewrite cumsum_last by exact Hne. ring. }
  rewrite (filter_nth_seq _ _ 0). rewrite cumsum_length.
  assert (Hf : forall j, (j < length p)%nat ->
     (Qgtb r (nth j (cumsum 0 p) 0) = true <-> qsum (firstn (S j) p) < qsum p * u)).
  { intros j Hj. rewrite Qgtb_iff, cumsum_nth by exact Hj. rewrite Hr, Qplus_0_l. reflexivity. }
  rewrite (count_sorted (fun j => Qgtb r (nth j (cumsum 0 p) 0)) (length p) i).
  - unfold selects, lower, upper. split.
    + intros [H1 H2]. split.
      * destruct i as [|i].
        -- destruct (Qlt_le_dec 0 u) as [H0|H0]; [left|right].
           ++ cbn. unfold Qdiv. rewrite Qmult_0_l. exact H0.
           ++ split; [reflexivity|]. destruct Hu. lra.
        -- left. apply scale_lt; [exact Hs|]. apply Hf; [lia|]. apply H1. lia.
      * apply scale_le; [exact Hs|]. specialize (H2 i ltac:(lia)).
        destruct (Qlt_le_dec (qsum (firstn (S i) p)) (qsum p * u)) as [H|H]; [|exact H].
        apply Hf in H; [|exact Hi]. congruence.
    + intros [H1 H2]. apply scale_le in H2; [|exact Hs]. split; intros j Hj.
      * apply Hf; [lia|]. destruct H1 as [H1|[-> _]]; [|lia].
        apply scale_lt in H1; [|exact Hs].
        pose proof (qsum_firstn_mono p (S j) i Hp ltac:(lia)). lra.
      * destruct (Qgtb r (nth j (cumsum 0 p) 0)) eqn:E; [|reflexivity].
        apply Hf in E; [|lia]. pose proof (qsum_firstn_mono p (S i) (S j) Hp ltac:(lia)). lra.
  - intros a b Hab Hb. apply Hf; [lia|]. apply Hf in Hb; [|lia].
    pose proof (qsum_firstn_mono p (S a) (S b) Hp ltac:(lia)). lra.
  - lia.
Qed.

Lemma choice_lt p u : weights p -> draw u -> (choice_index p u < length p)%nat.
Proof.
  intros Hw Hu. pose proof Hw as [Hp Hs]. pose proof (weights_ne p Hw) as Hne.
  unfold choice_index. set (r := last (cumsum 0 p) 0 * u).
  assert (Hr : r == qsum p * u).
  { unfold r. rewrite cumsum_last by exact Hne. ring. }
  rewrite (filter_nth_seq _ _ 0). rewrite cumsum_length.
  destruct p as [|x p] using rev_ind; [congruence|]. clear IHp.
  rewrite app_length. cbn [length]. rewrite Nat.add_1_r, seq_S, filter_app, app_length.
  cbn [filter Nat.add].
  assert (E : Qgtb r (nth (length p) (cumsum 0 (p ++ [x])) 0) = false).
  { destruct (Qgtb r _) eqn:E; [|reflexivity]. apply Qgtb_iff in E.
    rewrite cumsum_nth in E by (rewrite app_length; cbn; lia).
    rewrite firstn_all2 in E by (rewrite app_length; cbn; lia).
    rewrite Hr in E. destruct Hu as [U0 U1].
    assert (qsum (p ++ [x]) * u <= qsum (p ++ [x]) * 1) by (apply Qmult_le_l; lra). lra. }
  rewrite E. cbn [length]. rewrite Nat.add_0_r.
  assert (H : forall f m, (length (filter f (seq 0 m)) <= m)%nat).
  { intros f m. rewrite <- (seq_length m 0) at 2. induction (seq 0 m) as [|y l IH]; cbn; [lia|].
    destruct (f y); cbn; lia. }
  specialize (H (fun i => Qgtb r (nth i (cumsum 0 (p ++ [x])) 0)) (length p)). lia.
Qed.

Lemma length_is_probability p i : weights p -> (i < length p)%nat ->
  upper p i - lower p i == probability p i /\ 0 <= lower p i /\ upper p i <= 1.
Proof.
  intros [Hp Hs] Hi. unfold upper, lower, probability. split; [|split].
  - rewrite qsum_firstn_S by exact Hi. field. lra.
  - apply Qle_shift_div_l; [exact Hs|]. rewrite Qmult_0_l. apply qsum_nonneg, Forall_firstn, Hp.
  - apply Qle_shift_div_r; [exact Hs|]. rewrite Qmult_1_l.
    pose proof (qsum_firstn_mono p (S i) (length p) Hp ltac:(lia)) as H. rewrite firstn_all in H. exact H.
Qed.

Lemma positive_index p u : weights p -> 0 < u -> u < 1 -> 0 < nth (choice_index p u) p 0.
Proof.
  intros Hw H0 H1. assert (Hu : draw u) by (split; lra).
  pose proof (choice_lt p u Hw Hu) as Hi.
  destruct (proj1 (choice_spec p u (choice_index p u) Hw Hu Hi) eq_refl) as [A B].
  destruct A as [A|[_ A]]; [|lra].
  unfold lower, upper in *. destruct Hw as [Hp Hs].
  rewrite qsum_firstn_S in B by exact Hi.
  assert (E : (qsum (firstn (choice_index p u) p) + nth (choice_index p u) p 0) / qsum p ==
     qsum (firstn (choice_index p u) p) / qsum p + nth (choice_index p u) p 0 / qsum p) by (field; lra).
  rewrite E in B.
  assert (P : 0 < nth (choice_index p u) p 0 / qsum p) by lra.
  destruct (Qlt_le_dec 0 (nth (choice_index p u) p 0)) as [|N]; [assumption|].
  assert (nth (choice_index p u) p 0 / qsum p <= 0).
  { apply Qle_shift_div_r; [exact Hs|]. rewrite Qmult_0_l. exact N. } lra.
Qed.

(** ** The scan over the sites, row by row *)
Open Scope nat_scope.
Section Scan.
  Variable loc : list Z.
  Variable cond : list Z -> list (list Q).

  Fixpoint row_scan (s : list Z) (k : nat) (us : list Q) : list Z :=
    match us with
    | [] => s
    | u :: us => row_scan (upd s k (batch_choice1 loc (nth k (cond s) []) u)) (S k) us
    end.

  Lemma scan_fun_length sg k u : length u = length sg -> length (scan_fun loc cond sg k u) = length sg.
  Proof.
    intros H. unfold scan_fun, batch_choice. rewrite map_length, combine_length, map_length, combine_length, map_length. lia.
  Qed.

  Lemma scan_fun_nth sg k u b : length u = length sg -> b < length sg ->
    nth b (scan_fun loc cond sg k u) [] =
    upd (nth b sg []) k (batch_choice1 loc (nth k (cond (nth b sg [])) []) (nth b u 0%Q)).
  Proof.
    intros Hl Hb. unfold scan_fun, batch_choice.
    set (g := fun t : list Z * Z => upd (fst t) k (snd t)).
    set (h := fun t : list Q * Q => batch_choice1 loc (fst t) (snd t)).
    set (f := fun s : list Z => nth k (cond s) []).
    assert (L1 : length (combine (map f sg) u) = length sg) by (rewrite combine_length, map_length; lia).
    rewrite (nth_indep _ [] (g ([], h (f [], 0%Q)))) by (rewrite map_length, combine_length, map_length; lia).
    rewrite (map_nth g). rewrite combine_nth by (rewrite map_length; lia).
    rewrite (map_nth h). rewrite combine_nth by (rewrite map_length; lia).
    rewrite (map_nth f). reflexivity.
  Qed.

  Lemma scan_sites_rows us : forall sg k, Forall (fun u => length u = length sg) us ->
    length (scan_sites loc cond sg k us) = length sg /\
    forall b, b < length sg ->
      nth b (scan_sites loc cond sg k us) [] = row_scan (nth b sg []) k (map (fun u => nth b u 0%Q) us).
  Proof.
    induction us as [|u us IH]; intros sg k Hf; cbn [scan_sites map row_scan]; [split; reflexivity|].
    inversion Hf; subst. pose proof (scan_fun_length sg k u H1) as L.
    destruct (IH (scan_fun loc cond sg k u) (S k)) as [I1 I2]; [rewrite L; assumption|].
    rewrite L in I1, I2. split; [exact I1|]. intros b Hb. rewrite I2 by exact Hb.
    rewrite scan_fun_nth by assumption. reflexivity.
  Qed.

  Variable n : nat.
  Hypothesis Hnd : NoDup loc.
  Hypothesis Har : autoregressive n cond.
  Hypothesis Hpr : proper n loc cond.

  Lemma firstn_upd {A} (s : list A) k v : k < length s -> firstn (S k) (upd s k v) = firstn k s ++ [v].
  Proof.
    revert k; induction s as [|x s IH]; intros k Hk; cbn [length] in Hk; [lia|].
    destruct k as [|k]; [reflexivity|]. cbn [upd]. rewrite firstn_cons, IH by lia. reflexivity.
  Qed.
  Lemma firstn_S_nth {A} (s : list A) k d : k < length s -> firstn (S k) s = firstn k s ++ [nth k s d].
  Proof.
    revert k; induction s as [|x s IH]; intros k Hk; cbn [length] in Hk; [lia|].
    destruct k as [|k]; [reflexivity|]. cbn [nth]. rewrite firstn_cons, IH by lia. reflexivity.
  Qed.

  Definition from_js (js : list nat) : list Z := map (fun j => nth j loc 0%Z) js.

  Lemma row_scan_iff js : length js = n -> Forall (fun j => j < length loc) js ->
    forall us k s, k + length us = n -> length s = n -> Forall draw us ->
    (row_scan s k us = from_js js <->
     firstn k s = firstn k (from_js js) /\
     forall i, i < length us ->
       selects (nth (k + i) (cond (from_js js)) []) (nth (k + i) js 0) (nth i us 0%Q)).
  Proof.
    intros Hjl Hjf. assert (Lf : length (from_js js) = n) by (unfold from_js; rewrite map_length; exact Hjl).
    induction us as [|u us IH]; intros k s Hk Hs Hd; cbn [row_scan length] in *.
    - assert (k = n) by lia. subst k. rewrite (firstn_all2 s), (firstn_all2 (from_js js)) by lia.
      split; [intros ->; split; [reflexivity|intros; lia]|intros [-> _]; reflexivity].
    - apply Forall_cons_iff in Hd; destruct Hd as [H1 H2]. set (p := nth k (cond s) []).
      assert (Hkn : k < n) by lia.
      destruct (Hpr s k Hs Hkn) as [Lp Wp]. fold p in Lp, Wp.
      rewrite (IH (S k)) by (try lia; try assumption; rewrite upd_length; exact Hs).
      rewrite firstn_upd by lia. rewrite (firstn_S_nth (from_js js) k 0%Z) by lia.
      assert (Enth : nth k (from_js js) 0%Z = nth (nth k js 0) loc 0%Z).
      { unfold from_js. set (f := fun j : nat => nth j loc 0%Z).
        rewrite (nth_indep _ 0%Z (f 0)) by (rewrite map_length; lia). apply (map_nth f). }
      assert (Hjk : nth k js 0 < length loc).
      { rewrite Forall_forall in Hjf. apply Hjf, nth_In. lia. }
      assert (Hv : firstn k s = firstn k (from_js js) ->
        (batch_choice1 loc p u = nth k (from_js js) 0%Z <->
         selects (nth k (cond (from_js js)) []) (nth k js 0) u)).
      { intros E. rewrite <- (Har s (from_js js) k Hs Lf Hkn E). fold p.
        rewrite <- choice_spec by (try assumption; lia).
        pose proof (choice_lt p u Wp H1) as Hc. unfold batch_choice1. rewrite Enth.
        rewrite Nat.min_l by lia. rewrite Lp in Hc. split.
        - intros Eq. apply (proj1 (NoDup_nth loc 0%Z) Hnd); assumption.
        - intros ->. reflexivity. }
      split.
      + intros [E1 E2]. apply app_inj_tail in E1. destruct E1 as [E1 Ev]. split; [exact E1|].
        intros [|i] Hi.
        * rewrite Nat.add_0_r. cbn [nth]. apply Hv; assumption.
        * rewrite Nat.add_succ_r. cbn [nth]. apply (E2 i). lia.
      + intros [E1 E2]. split.
        * f_equal; [exact E1|]. f_equal. apply Hv; [exact E1|].
          specialize (E2 0 ltac:(lia)). rewrite Nat.add_0_r in E2. exact E2.
        * intros i Hi. specialize (E2 (S i) ltac:(lia)). rewrite Nat.add_succ_r in E2. exact E2.
  Qed.

  Lemma row_scan_valid : forall us k s, k + length us = n -> length s = n -> Forall draw us ->
    length (row_scan s k us) = n /\ firstn k (row_scan s k us) = firstn k s /\
    forall i, k <= i < n -> In (nth i (row_scan s k us) 0%Z) loc.
  Proof.
    induction us as [|u us IH]; intros k s Hk Hs Hd; cbn [row_scan length] in *.
    - split; [exact Hs|]. split; [reflexivity|]. intros; lia.
    - apply Forall_cons_iff in Hd; destruct Hd as [H1 H2]. set (p := nth k (cond s) []). set (v := batch_choice1 loc p u).
      assert (Hkn : k < n) by lia. destruct (Hpr s k Hs Hkn) as [Lp Wp]. fold p in Lp, Wp.
      destruct (IH (S k) (upd s k v)) as [I1 [I2 I3]]; [lia|rewrite upd_length; exact Hs|assumption|].
      split; [exact I1|]. rewrite firstn_upd in I2 by lia. rewrite (firstn_S_nth _ k 0%Z) in I2 by lia.
      apply app_inj_tail in I2. destruct I2 as [I2 I2']. split; [exact I2|].
      intros i Hi. destruct (Nat.eq_dec i k) as [->|Hne].
      + rewrite I2'. unfold v, batch_choice1. pose proof (choice_lt p u Wp H1). apply nth_In. lia.
      + apply I3. lia.
  Qed.
End Scan.

Lemma chunks_concat {A} m k : forall l : list A, length l = m * k -> concat (chunks m k l) = l.
Proof.
  induction m as [|m IH]; intros l Hl; cbn [chunks concat].
  - destruct l; [reflexivity|discriminate].
  - rewrite IH by (rewrite skipn_length; lia). apply firstn_skipn.
Qed.
Lemma chunks_shape {A} m k : forall l : list A, length l = m * k ->
  length (chunks m k l) = m /\ Forall (fun r => length r = k) (chunks m k l).
Proof.
  induction m as [|m IH]; intros l Hl; cbn [chunks length]; [split; [reflexivity|constructor]|].
  destruct (IH (skipn k l)) as [I1 I2]; [rewrite skipn_length; lia|].
  split; [lia|]. constructor; [rewrite firstn_length; lia|exact I2].
Qed.

Lemma sample_main loc cond n nc cl buffer us b js :
  NoDup loc -> autoregressive n cond -> proper n loc cond ->
  length buffer = cl * nc -> Forall (fun s => length s = n) buffer ->
  length us = n -> Forall (fun u => length u = cl * nc /\ Forall draw u) us ->
  b < cl * nc -> length js = n -> Forall (fun j => j < length loc) js ->
  let out := concat (ar_sample_chain loc cond nc cl buffer us) in
  let sigma := map (fun j => nth j loc 0%Z) js in
  nth b out [] = sigma <->
  forall i, i < n -> selects (nth i (cond sigma) []) (nth i js 0) (nth b (nth i us []) 0%Q).
Proof.
  intros Hnd Har Hpr Hb Hbf Hus Huf Hbb Hj Hjf out sigma.
  assert (Huf' : Forall (fun u => length u = length buffer) us).
  { rewrite Hb. apply Forall_forall. intros u Hu. rewrite Forall_forall in Huf. apply Huf, Hu. }
  destruct (scan_sites_rows loc cond us buffer 0 Huf') as [L R].
  unfold out, ar_sample_chain. rewrite chunks_concat by lia. rewrite R by lia.
  assert (Hd : Forall draw (map (fun u => nth b u 0%Q) us)).
  { apply Forall_map, Forall_forall. intros u Hu. rewrite Forall_forall in Huf.
    destruct (Huf u Hu) as [Lu Du]. rewrite Forall_forall in Du. apply Du, nth_In. lia. }
  assert (Hrow : length (nth b buffer []) = n).
  { rewrite Forall_forall in Hbf. apply Hbf, nth_In. lia. }
  pose proof (row_scan_iff loc cond n Hnd Har Hpr js Hj Hjf (map (fun u => nth b u 0%Q) us) 0
    (nth b buffer []) ltac:(rewrite map_length; lia) Hrow Hd) as H.
  unfold from_js in H. fold sigma in H. rewrite H. rewrite map_length, Hus.
  assert (Hn : forall i, i < n -> nth i (map (fun u => nth b u 0%Q) us) 0%Q = nth b (nth i us []) 0%Q).
  { intros i Hi. set (f := fun u : list Q => nth b u 0%Q).
    rewrite (nth_indep _ 0%Q (f [])) by (rewrite map_length; lia). apply (map_nth f). }
  split.
  - intros [_ H2] i Hi. rewrite <- Hn by exact Hi. apply (H2 i Hi).
  - intros H2. split; [reflexivity|]. intros i Hi. rewrite Hn by exact Hi. apply (H2 i Hi).
Qed.

Lemma sample_valid loc cond n nc cl buffer us :
  proper n loc cond ->
  length buffer = cl * nc -> Forall (fun s => length s = n) buffer ->
  length us = n -> Forall (fun u => length u = cl * nc /\ Forall draw u) us ->
  let out := ar_sample_chain loc cond nc cl buffer us in
  length out = cl /\ Forall (fun r => length r = nc) out /\
  Forall (Forall (fun s => length s = n /\ Forall (fun x => In x loc) s)) out.
Proof.
  intros Hpr Hb Hbf Hus Huf out.
  assert (Huf' : Forall (fun u => length u = length buffer) us).
  { rewrite Hb. apply Forall_forall. intros u Hu. rewrite Forall_forall in Huf. apply Huf, Hu. }
  destruct (scan_sites_rows loc cond us buffer 0 Huf') as [L R].
  destruct (chunks_shape cl nc (scan_sites loc cond buffer 0 us)) as [S1 S2]; [lia|].
  split; [exact S1|]. split; [exact S2|].
  apply Forall_forall. intros r Hr. apply Forall_forall. intros s Hs.
  assert (Hin : In s (scan_sites loc cond buffer 0 us)).
  { rewrite <- (chunks_concat cl nc) by lia. apply in_concat. exists r. split; assumption. }
  destruct (In_nth _ _ [] Hin) as [b [Hbl Es]]. rewrite L in Hbl. rewrite R in Es by exact Hbl.
  assert (Hd : Forall draw (map (fun u => nth b u 0%Q) us)).
  { apply Forall_map, Forall_forall. intros u Hu. rewrite Forall_forall in Huf.
    destruct (Huf u Hu) as [Lu Du]. rewrite Forall_forall in Du. apply Du, nth_In. lia. }
  assert (Hrow : length (nth b buffer []) = n).
  { rewrite Forall_forall in Hbf. apply Hbf, nth_In. lia. }
  destruct (row_scan_valid loc cond n Hpr (map (fun u => nth b u 0%Q) us) 0 (nth b buffer [])
     ltac:(rewrite map_length; lia) Hrow Hd) as [V1 [_ V2]].
  rewrite Es in V1, V2. split; [exact V1|]. apply Forall_forall. intros x Hx.
  destruct (In_nth _ _ 0%Z Hx) as [i [Hi Ei]]. rewrite <- Ei. apply V2. lia.
Qed.

Lemma buffer_irrelevant loc cond n nc cl b1 b2 us :
  NoDup loc -> autoregressive n cond -> proper n loc cond ->
  length b1 = cl * nc -> Forall (fun s => length s = n) b1 ->
  length b2 = cl * nc -> Forall (fun s => length s = n) b2 ->
  length us = n -> Forall (fun u => length u = cl * nc /\ Forall draw u) us ->
  ar_sample_chain loc cond nc cl b1 us = ar_sample_chain loc cond nc cl b2 us.
Proof.
  intros Hnd Har Hpr L1 F1 L2 F2 Hus Huf.
  assert (U : forall buf : list (list Z), length buf = cl * nc -> Forall (fun u => length u = length buf) us).
  { intros buf Hb. rewrite Hb. apply Forall_forall. intros u Hu. rewrite Forall_forall in Huf. apply Huf, Hu. }
  destruct (scan_sites_rows loc cond us b1 0 (U b1 L1)) as [A1 A2].
  destruct (scan_sites_rows loc cond us b2 0 (U b2 L2)) as [B1 B2].
  unfold ar_sample_chain. f_equal. apply (nth_ext _ _ [] []); [lia|]. intros b Hb.
  rewrite A2, B2 by lia.
  assert (Hd : Forall draw (map (fun u => nth b u 0%Q) us)).
  { apply Forall_map, Forall_forall. intros u Hu. rewrite Forall_forall in Huf.
    destruct (Huf u Hu) as [Lu Du]. rewrite Forall_forall in Du. apply Du, nth_In. lia. }
  assert (R1 : length (nth b b1 []) = n) by (rewrite Forall_forall in F1; apply F1, nth_In; lia).
  assert (R2 : length (nth b b2 []) = n) by (rewrite Forall_forall in F2; apply F2, nth_In; lia).
  set (u := map (fun u => nth b u 0%Q) us) in *.
  assert (Lu : length u = n) by (unfold u; rewrite map_length; exact Hus).
  assert (G : forall v k s t, k + length v = n -> length s = n -> length t = n -> 
    firstn k s = firstn k t -> row_scan loc cond s k v = row_scan loc cond t k v).
  { clear -Har. induction v as [|x v IH]; intros k s t Hk Hs Ht E; cbn [row_scan length] in *.
    - rewrite !firstn_all2 in E by lia. exact E.
    - rewrite (Har s t k Hs Ht ltac:(lia) E). apply IH; rewrite ?upd_length; try lia.
      rewrite !firstn_upd by lia. rewrite E. reflexivity. }
  apply G; auto.
Qed.
