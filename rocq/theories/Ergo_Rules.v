From Coq Require Import List ZArith Reals Arith Lra Lia Permutation Relations Bool.
From Verif Require Import Base BaseFacts Hilbert_Model HilbertOps_Model HilbertOps_Spec HilbertOps_Proofs
  Balance_Model Balance_Spec Balance_Proofs Rules_Model Rules_Spec Rules_Proofs Ergo_Spec Ergo_Proofs Ergo_Metro.
Import ListNotations.
Open Scope R_scope.

Lemma nth_firstn_lt {A} (d : A) k : forall l i, (i < k)%nat -> nth i (firstn k l) d = nth i l d.
Proof.
  induction k as [|k IH]; intros [|x l] [|i] H; cbn; try reflexivity; try lia. apply IH. lia.
Qed.
Lemma nth_skipn {A} (d : A) k : forall l i, nth i (skipn k l) d = nth (k + i) l d.
Proof. induction k as [|k IH]; intros [|x l] i; cbn; try reflexivity; [destruct i; reflexivity|apply IH]. Qed.

(** ** Kernels that agree on the space *)
Lemma pushes_same {X} (space : list X) K K' n : (forall x y, In x space -> In y space -> K x y = K' x y) ->
  forall d z, In z space -> pushes space K n d z = pushes space K' n d z.
Proof.
  intros H.
  assert (HP : forall d e, (forall x, In x space -> d x = e x) -> forall z, In z space -> push space K d z = push space K' e z).
  { intros d e Hde z Hz. unfold push. apply rsum_ext. intros x Hx. rewrite Hde, H by assumption. reflexivity. }
  assert (HE : forall d e, (forall x, In x space -> d x = e x) -> forall z, In z space -> pushes space K n d z = pushes space K' n e z).
  { induction n as [|n IH]; intros d e Hde z Hz; cbn; [apply Hde, Hz|]. apply IH; [|exact Hz].
    apply HP, Hde. }
  intros d z Hz. apply HE; auto.
Qed.

Lemma mixes_same {X} (space : list X) K K' w : (forall x y, In x space -> In y space -> K x y = K' x y) ->
  mixes space K w -> mixes space K' w.
Proof.
  intros H (k & q & Hk & Hq & Hm). exists k, q. split; [exact Hk|]. split; [exact Hq|].
  intros d n Hd. eapply Rle_trans; [|apply (Hm d n Hd)]. apply Req_le. unfold difference.
  apply rsum_ext. intros z Hz. rewrite (pushes_same space K K' n H d z Hz). reflexivity.
Qed.

Lemma tends_same {X} (space : list X) K K' w : (forall x y, In x space -> In y space -> K x y = K' x y) ->
  tends space K w -> tends space K' w.
Proof.
  intros H Ht d z Hd Hz eps He. destruct (Ht d z Hd Hz eps He) as (N & HN). exists N. intros n Hn.
  rewrite <- (pushes_same space K K' n H d z Hz). apply HN, Hn.
Qed.

Lemma uniform_prob_pos {D} (ds : list D) f y : In y (map f ds) -> 0 < uniform_prob ds f y.
Proof.
  intros H. unfold uniform_prob. apply Rdiv_lt_0_compat; apply lt_0_INR.
  - apply (count_occ_In cfg_eqd) in H. exact H.
  - destruct ds; [destruct H|cbn; lia].
Qed.

Lemma uniform_prob_pos_inv {D} (ds : list D) f y : 0 < uniform_prob ds f y -> In y (map f ds).
Proof.
  intros H. apply (count_occ_In cfg_eqd). unfold uniform_prob, Rdiv in H.
  destruct (count_occ cfg_eqd (map f ds) y) eqn:E; [cbn in H; lra|lia].
Qed.

(** ** LocalRule *)
Section Local.
  Variable h : hilbert.
  Variable leaf : nat -> hilbert.
  Variable space : list cfg.
  Hypothesis HF : flippable h.
  Hypothesis HL : forall i, (i < n_sites h)%nat -> at_site h i (leaf i) /\ (2 <= n_local_values (leaf i))%Z.
  Hypothesis Hsp : forall x, In x space <-> site_valid h x.
  Notation T := (local_T h leaf).

  Lemma local_T_pos x y : site_valid h x -> 0 < T x y <-> exists i, (i < n_sites h)%nat /\ differ i (leaf i) x y.
  Proof.
    intros Hx. unfold local_T. split.
    - intros H. apply rsum_pos_ex in H. destruct H as (i & Hi & Hp). apply in_seq in Hi.
      exists i. split; [lia|]. destruct (HL i) as [HA _]; [lia|].
      assert (Hq : 0 < uniform_prob (map Z.of_nat (seq 0 (Z.to_nat (n_local_values (leaf i) - 1))))
                         (fun k => local_move h i k x) y).
      { destruct (Rle_lt_or_eq_dec _ _ (uniform_prob_nonneg
          (map Z.of_nat (seq 0 (Z.to_nat (n_local_values (leaf i) - 1)))) (fun k => local_move h i k x) y))
          as [|E]; [assumption|]. rewrite <- E in Hp. lra. }
      apply uniform_prob_pos_inv in Hq. apply in_map_iff in Hq. destruct Hq as (k & E & Hk).
      apply (in_zs (n_local_values (leaf i) - 1) k) in Hk.
      destruct (local_move_valid h i (leaf i) HF HA x k Hx Hk) as (v & E' & Hlv & Hne).
      exists v. rewrite <- E. auto.
    - intros (i & Hi & D). destruct (HL i Hi) as [HA H2].
      assert (Hn : 0 < / INR (n_sites h)) by (apply Rinv_0_lt_compat, lt_0_INR; lia).
      eapply Rlt_le_trans; [|apply (rsum_term (fun i => / INR (n_sites h) *
          uniform_prob (map Z.of_nat (seq 0 (Z.to_nat (n_local_values (leaf i) - 1))))
                       (fun k => local_move h i k x) y) _ i)].
      + apply Rmult_lt_0_compat; [exact Hn|]. apply uniform_prob_pos.
        apply (count_occ_In cfg_eqd).
        change (map Z.of_nat (seq 0 (Z.to_nat (n_local_values (leaf i) - 1)))) with (zs (n_local_values (leaf i) - 1)).
        rewrite (count_flip_yes h i (leaf i) HF HA x y Hx D). lia.
      + intros j _. apply Rmult_le_pos; [lra|apply uniform_prob_nonneg].
      + apply in_seq. lia.
  Qed.

  Lemma upd_valid x i v : site_valid h x -> (i < n_sites h)%nat -> local_value (leaf i) v -> site_valid h (upd x i v).
  Proof.
    intros [Hl Hv] Hi Hlv. split; [rewrite upd_length; exact Hl|]. intros j g Hg.
    destruct (Nat.eq_dec j i) as [->|Hne].
    - rewrite nth_upd_same by lia. rewrite (at_site_fun h i g (leaf i) Hg (proj1 (HL i Hi))). exact Hlv.
    - rewrite nth_upd_other by congruence. apply Hv, Hg.
  Qed.

  Lemma flip_walk x i v : site_valid h x -> (i < n_sites h)%nat -> local_value (leaf i) v -> v <> nth i x 0%Z ->
    walk space T 1 x (upd x i v).
  Proof.
    intros Hx Hi Hlv Hne. pose proof (upd_valid x i v Hx Hi Hlv) as Hy.
    assert (D : differ i (leaf i) x (upd x i v)) by (exists v; auto).
    apply walk_one; try (apply Hsp; assumption); apply local_T_pos; auto.
    - exists i. auto.
    - exists i. split; [exact Hi|]. apply (differ_sym h i (leaf i) (proj1 (HL i Hi)) x _ Hx D).
  Qed.

  Lemma local_connected : connected space T.
  Proof.
    intros x y Hx Hy. apply Hsp in Hx. apply Hsp in Hy.
    destruct Hx as [Lx Vx]. destruct Hy as [Ly Vy].
    set (z := fun k => firstn k y ++ skipn k x).
    assert (Lz : forall k, (k <= n_sites h)%nat -> length (z k) = n_sites h).
    { intros k Hk. unfold z. rewrite app_length, firstn_length, skipn_length. lia. }
    assert (Nz : forall k j, (k <= n_sites h)%nat -> (j < n_sites h)%nat ->
                 nth j (z k) 0%Z = if Nat.ltb j k then nth j y 0%Z else nth j x 0%Z).
    { intros k j Hk Hj. unfold z. destruct (Nat.ltb_spec j k) as [Hlt|Hge].
      - rewrite app_nth1 by (rewrite firstn_length; lia). rewrite nth_firstn_lt by exact Hlt. reflexivity.
      - rewrite app_nth2 by (rewrite firstn_length; lia). rewrite firstn_length, Nat.min_l by lia.
        rewrite nth_skipn. f_equal. lia. }
    assert (Vz : forall k, (k <= n_sites h)%nat -> site_valid h (z k)).
    { intros k Hk. split; [apply Lz, Hk|]. intros j g Hg. pose proof (at_site_lt _ _ _ Hg) as Hj.
      rewrite Nz by lia. destruct (Nat.ltb j k); [apply Vy|apply Vx]; exact Hg. }
    assert (HW : forall k, (k <= n_sites h)%nat -> exists n, walk space T n x (z k)).
    { induction k as [|k IH]; intros Hk.
      - exists 0%nat. change (z 0%nat) with x. constructor. apply Hsp. split; assumption.
      - destruct IH as (n & Hn); [lia|].
        assert (E : z (S k) = upd (z k) k (nth k y 0%Z)).
        { apply (nth_ext _ _ 0%Z 0%Z); [rewrite upd_length, !Lz by lia; reflexivity|].
          intros j Hj. rewrite Lz in Hj by lia. destruct (Nat.eq_dec j k) as [->|Hne].
          - rewrite nth_upd_same by (rewrite Lz; lia). rewrite Nz by lia.
            destruct (Nat.ltb_spec k (S k)); [reflexivity|lia].
          - rewrite nth_upd_other by congruence. rewrite !Nz by lia.
            destruct (Nat.ltb_spec j (S k)), (Nat.ltb_spec j k); try reflexivity; lia. }
        destruct (Z.eq_dec (nth k y 0%Z) (nth k (z k) 0%Z)) as [Ev|Nv].
        + exists n. rewrite E, Ev, upd_nth_id. exact Hn.
        + exists (n + 1)%nat. apply (walk_app space T n 1 x (z k) _ Hn). rewrite E.
          apply flip_walk; [apply Vz; lia|lia| |exact Nv]. apply Vy. apply HL. lia. }
    destruct (HW (n_sites h) (le_n _)) as (n & Hn). exists n.
    replace (z (n_sites h)) with y in Hn; [exact Hn|].
    unfold z. rewrite <- Lx at 1. rewrite <- Ly at 1. rewrite Lx.
    rewrite firstn_all2, skipn_all2, app_nil_r by lia. reflexivity.
  Qed.

  Lemma three_values i x : (i < n_sites h)%nat -> (3 <= n_local_values (leaf i))%Z -> site_valid h x ->
    walk space T 3 x x.
  Proof.
    intros Hi H3 Hx. destruct (HL i Hi) as [HA _]. destruct Hx as [Lx Vx].
    destruct (flip_state_correct h x i (leaf i) HF Lx HA (Vx i _ HA)) as [H1 H2].
    destruct (H1 0%Z) as (v & Ev & Lv & Nv); [lia|]. destruct (H1 1%Z) as (w & Ew & Lw & Nw); [lia|].
    assert (Hvw : v <> w).
    { intros ->. destruct (H2 w Lw Nw) as (k & _ & U).
      assert (k = 0%Z) by (apply U; split; [lia|rewrite Ev; reflexivity]).
      assert (k = 1%Z) by (apply U; split; [lia|rewrite Ew; reflexivity]). lia. }
    assert (Hx : site_valid h x) by (split; assumption).
    pose proof (flip_walk x i v Hx Hi Lv Nv) as W1.
    assert (W2 : walk space T 1 (upd x i v) (upd x i w)).
    { rewrite <- (upd_upd x i v w). apply flip_walk; auto; [apply upd_valid; auto|].
      rewrite nth_upd_same by lia. congruence. }
    pose proof (walk_sym space T _ _ _ (flip_walk x i w Hx Hi Lw Nw)) as W3.
    exact (walk_app space T 1 2 _ _ _ W1 (walk_app space T 1 1 _ _ _ W2 W3)).
  Qed.

  Lemma other_unique i x v w : (i < n_sites h)%nat -> n_local_values (leaf i) = 2%Z -> site_valid h x ->
    local_value (leaf i) v -> local_value (leaf i) w -> v <> nth i x 0%Z -> w <> nth i x 0%Z -> v = w.
  Proof.
    intros Hi H3 [Lx Vx] Lv Lw Nv Nw. destruct (HL i Hi) as [HA _].
    destruct (flip_state_correct h x i (leaf i) HF Lx HA (Vx i _ HA)) as [H1 H2].
    destruct (H2 v Lv Nv) as (k & [Hk Ek] & _). destruct (H2 w Lw Nw) as (l & [Hl El] & _).
    assert (k = l) by lia. subst l. rewrite Ek in El.
    assert (E : nth i (upd x i v) 0%Z = nth i (upd x i w) 0%Z) by (rewrite El; reflexivity).
    rewrite !nth_upd_same in E by lia. exact E.
  Qed.

  Definition agree (r x : cfg) (l : list nat) : bool :=
    fold_right (fun i b => xorb (Z.eqb (nth i x 0%Z) (nth i r 0%Z)) b) false l.

  Lemma agree_upd r x i v l : NoDup l -> (i < length x)%nat ->
    agree r (upd x i v) l =
    if in_dec Nat.eq_dec i l
    then xorb (xorb (Z.eqb v (nth i r 0%Z)) (Z.eqb (nth i x 0%Z) (nth i r 0%Z))) (agree r x l)
    else agree r x l.
  Proof.
    intros Hnd Hi. induction Hnd as [|j l Hj Hnd IH]; [reflexivity|].
    cbn [agree fold_right]. fold (agree r (upd x i v) l). fold (agree r x l). rewrite IH. clear IH.
    destruct (Nat.eq_dec j i) as [->|Hne].
    - rewrite nth_upd_same by exact Hi.
      destruct (in_dec Nat.eq_dec i l) as [Hin|_]; [contradiction|].
      destruct (in_dec Nat.eq_dec i (i :: l)) as [_|Hn]; [|exfalso; apply Hn; left; reflexivity].
      destruct (Z.eqb v _), (Z.eqb (nth i x 0%Z) _), (agree r x l); reflexivity.
    - rewrite nth_upd_other by congruence.
      destruct (in_dec Nat.eq_dec i l) as [Hin|Hn];
        destruct (in_dec Nat.eq_dec i (j :: l)) as [Hin'|Hn'].
      + destruct (Z.eqb (nth j x 0%Z) _), (Z.eqb v _), (Z.eqb (nth i x 0%Z) _), (agree r x l); reflexivity.
      + exfalso. apply Hn'. right. exact Hin.
      + exfalso. destruct Hin' as [E|Hin']; [congruence|contradiction].
      + reflexivity.
  Qed.

  Lemma flip_parity x : (forall i, (i < n_sites h)%nat -> n_local_values (leaf i) = 2%Z) -> In x space ->
    forall u v, In u space -> In v space -> 0 < T u v ->
      agree x v (seq 0 (n_sites h)) = negb (agree x u (seq 0 (n_sites h))).
  Proof.
    intros H2 Hx0 u v Hu _ Hp. apply Hsp in Hu. apply (local_T_pos u v Hu) in Hp.
    destruct Hp as (i & Hi & w & -> & Lw & Nw). apply Hsp in Hx0.
    rewrite agree_upd; [|apply seq_NoDup|rewrite (proj1 Hu); exact Hi].
    destruct (in_dec Nat.eq_dec i (seq 0 (n_sites h))) as [_|Hn]; [|exfalso; apply Hn, in_seq; lia].
    destruct (Z.eqb_spec w (nth i x 0%Z)) as [Ew|Nw'], (Z.eqb_spec (nth i u 0%Z) (nth i x 0%Z)) as [Eu|Nu];
      try (destruct (agree x u _); reflexivity).
    - congruence.
    - exfalso. apply Nw'. apply (other_unique i u w (nth i x 0%Z)); auto.
      apply (proj2 Hx0), HL, Hi.
  Qed.

  Lemma two_values_even : (forall i, (i < n_sites h)%nat -> n_local_values (leaf i) = 2%Z) ->
    ~ odd_return space T.
  Proof.
    intros H2 (x & n & Hodd & Hw). pose proof (proj1 (walk_in _ _ _ _ _ Hw)) as Hx0.
    pose proof (walk_parity space T _ n x x (flip_parity x H2 Hx0) Hw) as E. apply Nat.odd_spec in Hodd. rewrite Hodd in E.
    destruct (agree x x (seq 0 (n_sites h))); discriminate E.
  Qed.
End Local.

Lemma local_mixes_iff h leaf space psi mp a :
  NoDup space -> space <> [] -> flippable h -> (0 < n_sites h)%nat ->
  (forall i, (i < n_sites h)%nat -> at_site h i (leaf i) /\ (2 <= n_local_values (leaf i))%Z) ->
  (forall x, In x space <-> site_valid h x) ->
  (forall x y, In x space -> In y space ->
     probability_of (accepts psi mp (fun _ _ => None) x y) (a x y)) ->
  let K := kernel cfg_eqd space (local_T h leaf) a in
  let live := (exists i, (i < n_sites h)%nat /\ (3 <= n_local_values (leaf i))%Z) \/
              (exists x y, In x space /\ In y space /\ target psi mp x <> target psi mp y) in
  (live -> mixes space K (target psi mp)) /\ (tends space K (target psi mp) -> live).
Proof.
  intros Hnd Hne HF Hn HL Hsp Ha K live.
  pose proof (local_proposal h leaf space Hnd HF Hn HL Hsp) as HT.
  assert (Hsym : forall x y, In x space -> In y space -> local_T h leaf y x = local_T h leaf x y).
  { intros x y Hx Hy. apply local_T_sym; auto; [intros i Hi; apply HL, Hi|apply Hsp, Hy|apply Hsp, Hx]. }
  assert (Hc : corrected space (local_T h leaf) (fun _ _ => None)).
  { intros x y Hx Hy _. apply Hsym; assumption. }
  split.
  - intros Hlive. apply (mixes_if cfg_eqd space Hnd psi mp (fun _ _ => None) (local_T h leaf) a HT Hc Ha).
    + apply (local_connected h leaf space HF HL Hsp).
    + destruct Hlive as [(i & Hi & H3)|(x & y & Hx & Hy & Hd)].
      * left. destruct space as [|x l] eqn:E; [congruence|]. rewrite <- E in *.
        exists x, 3%nat. split; [exists 1%nat; reflexivity|].
        apply (three_values h leaf space HF HL Hsp i x Hi H3). apply Hsp. rewrite E. left. reflexivity.
      * right. destruct (local_connected h leaf space HF HL Hsp x y Hx Hy) as (n & Hw).
        destruct (walk_changes space _ (target psi mp) n x y Hw Hd) as (u & v & Hu & Hv & H1 & H2 & Hlt).
        apply (reject_at space psi mp (fun _ _ => None) (local_T h leaf) a Ha u v Hu Hv H1).
        apply (downhill space psi mp (fun _ _ => None) (local_T h leaf) a HT Hc Ha u v Hu Hv H1); auto.
  - intros Ht.
    destruct (tends_only_if cfg_eqd space Hnd psi mp (fun _ _ => None) (local_T h leaf) a HT Hc Ha Hne Ht)
      as [_ [Hodd|Hrej]].
    + left.
      assert (Hdec : (exists i, (i < n_sites h)%nat /\ (3 <= n_local_values (leaf i))%Z) \/
                     (forall i, (i < n_sites h)%nat -> n_local_values (leaf i) = 2%Z)).
      { clear - HL. assert (HB : forall m, (m <= n_sites h)%nat ->
          (exists i, (i < m)%nat /\ (3 <= n_local_values (leaf i))%Z) \/
          (forall i, (i < m)%nat -> n_local_values (leaf i) = 2%Z)).
        { induction m as [|m IH]; intros Hm; [right; intros; lia|].
          destruct IH as [(i & Hi & H3)|H2]; [lia|left; exists i; split; [lia|exact H3]|].
          destruct (Z_le_dec 3 (n_local_values (leaf m))) as [H3|H3]; [left; exists m; split; [lia|exact H3]|].
          right. intros i Hi. destruct (Nat.eq_dec i m) as [->|]; [|apply H2; lia].
          pose proof (proj2 (HL m Hm)). lia. }
        apply HB, le_n. }
      destruct Hdec as [H3|H2]; [exact H3|]. exfalso.
      exact (two_values_even h leaf space HF HL Hsp H2 Hodd).
    + right. destruct Hrej as (x & y & Hx & Hy & Hp & Hu). exists x, y. split; [exact Hx|]. split; [exact Hy|].
      intros E. apply (reject_iff space psi mp (fun _ _ => None) a Ha x y Hx Hy) in Hu.
      rewrite (uphill space psi mp (fun _ _ => None) (local_T h leaf) a HT Hc Ha x y Hx Hy Hp (Hsym x y Hx Hy) E) in Hu.
      lra.
Qed.
