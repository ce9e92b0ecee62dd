From Coq Require Import List ZArith Reals Arith Lra Lia Permutation Relations Bool.
From Verif Require Import Base BaseFacts Hilbert_Model HilbertOps_Model HilbertOps_Spec HilbertOps_Proofs
  Balance_Model Balance_Spec Balance_Proofs Rules_Model Rules_Spec Rules_Proofs Ergo_Spec Ergo_Proofs Ergo_Metro Ergo_Rules.
Import ListNotations.
Open Scope R_scope.

(** ** ExchangeRule *)
Lemma swap_id i x : (i < length x)%nat -> swap i i x = x.
Proof.
  intros Hi. apply (nth_ext _ _ 0%Z 0%Z); [apply swap_length|]. intros k _. rewrite swap_nth by exact Hi.
  destruct (Nat.eqb_spec k i) as [->|]; reflexivity.
Qed.

Lemma swap_comm i j x : (i < length x)%nat -> (j < length x)%nat -> swap i j x = swap j i x.
Proof.
  intros Hi Hj. apply (nth_ext _ _ 0%Z 0%Z); [rewrite !swap_length; reflexivity|]. intros k _.
  rewrite !swap_nth by assumption. destruct (Nat.eqb_spec k j), (Nat.eqb_spec k i); subst; reflexivity.
Qed.

Lemma swap_conj i j k x : (i < length x)%nat -> (j < length x)%nat -> (k < length x)%nat ->
  i <> j -> i <> k -> j <> k -> swap i j (swap j k (swap i j x)) = swap i k x.
Proof.
  intros Hi Hj Hk H1 H2 H3. apply (nth_ext _ _ 0%Z 0%Z); [rewrite !swap_length; reflexivity|]. intros m _.
  repeat (rewrite swap_nth by (rewrite ?swap_length; assumption)).
  destruct (Nat.eqb_spec m i), (Nat.eqb_spec m j), (Nat.eqb_spec m k), (Nat.eqb_spec i j), (Nat.eqb_spec i k),
    (Nat.eqb_spec i i), (Nat.eqb_spec j j), (Nat.eqb_spec j k), (Nat.eqb_spec k k), (Nat.eqb_spec k j), (Nat.eqb_spec j i),
    (Nat.eqb_spec k i); subst; try congruence; try lia; reflexivity.
Qed.

Section Exchange.
  Variable n : nat.
  Variable clusters : list (Z * Z).
  Variable space : list cfg.
  Hypothesis Hon : on_sites n clusters.
  Hypothesis Hsp : forall x, In x space -> length x = n /\ forall y, Permutation x y -> In y space.
  Hypothesis Hlink : forall i j, (i < n)%nat -> (j < n)%nat -> linked clusters i j.
  Notation T := (exchange_T clusters).

  Lemma in_space_swap i j x : In x space -> (i < n)%nat -> (j < n)%nat -> In (swap i j x) space.
  Proof. intros Hx Hi Hj. destruct (Hsp x Hx) as [Hl Hp]. apply Hp, swap_perm; lia. Qed.

  Lemma cluster_T c x : In c clusters -> In x space -> 0 < T x (exchange_move c x).
  Proof. intros Hc _. apply uniform_prob_pos. apply (in_map (fun c => exchange_move c x)), Hc. Qed.

  Lemma cluster_walk c x : In c clusters -> In x space -> walk space T 1 x (exchange_move c x).
  Proof.
    intros Hc Hx. destruct (Hsp x Hx) as [Hl Hp]. pose proof (proj1 (Forall_forall _ _) Hon c Hc) as [B1 B2].
    destruct (exchange_perm c x) as [P1 P2]; [lia|lia|]. pose proof (Hp _ P1) as Hy.
    apply walk_one; auto; [apply cluster_T; assumption|].
    rewrite <- P2 at 2. apply cluster_T; assumption.
  Qed.

  Lemma edge_lt j k : In (Z.of_nat j, Z.of_nat k) clusters \/ In (Z.of_nat k, Z.of_nat j) clusters ->
    (j < n)%nat /\ (k < n)%nat.
  Proof.
    intros [H|H]; pose proof (proj1 (Forall_forall _ _) Hon _ H) as [B1 B2]; cbn [fst snd] in *; lia.
  Qed.

  Lemma edge_walk j k x : In (Z.of_nat j, Z.of_nat k) clusters \/ In (Z.of_nat k, Z.of_nat j) clusters ->
    In x space -> walk space T 1 x (swap j k x).
  Proof.
    intros H Hx. destruct (edge_lt j k H) as [Hj Hk]. destruct (Hsp x Hx) as [Hl _].
    destruct H as [H|H]; pose proof (cluster_walk _ x H Hx) as W;
      rewrite exchange_swap in W by (cbn [fst snd]; lia); cbn [fst snd] in W; rewrite !Nat2Z.id in W.
    - exact W.
    - rewrite swap_comm by lia. exact W.
  Qed.

  Lemma linked_walk i k : (i < n)%nat -> linked clusters i k ->
    (k < n)%nat /\ forall x, In x space -> exists m, walk space T m x (swap i k x).
  Proof.
    intros Hi H. apply clos_rt_rtn1 in H. induction H as [|j k Hjk Hij [Hj IH]].
    - split; [exact Hi|]. intros x Hx. exists 0%nat. rewrite swap_id by (rewrite (proj1 (Hsp x Hx)); exact Hi).
      constructor. exact Hx.
    - destruct (edge_lt j k Hjk) as [_ Hk]. split; [exact Hk|]. intros x Hx. destruct (Hsp x Hx) as [Hl _].
      destruct (Nat.eq_dec i k) as [->|Nik].
      { exists 0%nat. rewrite swap_id by lia. constructor. exact Hx. }
      destruct (Nat.eq_dec j k) as [->|Njk]; [apply IH, Hx|].
      destruct (Nat.eq_dec i j) as [->|Nij]; [exists 1%nat; apply edge_walk; assumption|].
      rewrite <- (swap_conj i j k x) by (auto; lia).
      destruct (IH x Hx) as (m1 & W1). pose proof (in_space_swap i j x Hx Hi Hj) as S1.
      pose proof (edge_walk j k _ Hjk S1) as W2. pose proof (in_space_swap j k _ S1 Hj Hk) as S2.
      destruct (IH _ S2) as (m3 & W3). exists (m1 + (1 + m3))%nat.
      exact (walk_app space T _ _ _ _ _ W1 (walk_app space T _ _ _ _ _ W2 W3)).
  Qed.

  Lemma swap_walk i j x : (i < n)%nat -> (j < n)%nat -> In x space -> exists m, walk space T m x (swap i j x).
  Proof. intros Hi Hj Hx. apply (linked_walk i j Hi (Hlink i j Hi Hj)), Hx. Qed.

  Lemma perm_walk x y : Permutation x y -> forall p, In (p ++ x) space -> exists m, walk space T m (p ++ x) (p ++ y).
  Proof.
    induction 1 as [|a x y HP IH|a b x|x y z H1 IH1 H2 IH2]; intros p Hx.
    - exists 0%nat. constructor. exact Hx.
    - replace (p ++ a :: x) with ((p ++ [a]) ++ x) in * by (rewrite <- app_assoc; reflexivity).
      replace (p ++ a :: y) with ((p ++ [a]) ++ y) by (rewrite <- app_assoc; reflexivity). apply IH, Hx.
    - destruct (Hsp _ Hx) as [Hl _]. rewrite app_length in Hl. cbn [length] in Hl.
      assert (E : p ++ a :: b :: x = swap (length p) (S (length p)) (p ++ b :: a :: x)).
      { apply (nth_ext _ _ 0%Z 0%Z); [rewrite swap_length, !app_length; reflexivity|].
        intros k Hk. rewrite swap_nth by (rewrite app_length; cbn [length]; lia).
        rewrite (app_nth2 p (b :: a :: x)) by lia. rewrite (app_nth2 p (b :: a :: x)) by lia.
        replace (length p - length p)%nat with 0%nat by lia.
        replace (S (length p) - length p)%nat with 1%nat by lia. cbn [nth].
        destruct (Nat.eqb_spec k (S (length p))) as [->|N1].
        - rewrite app_nth2 by lia. replace (S (length p) - length p)%nat with 1%nat by lia. reflexivity.
        - destruct (Nat.eqb_spec k (length p)) as [->|N2].
          + rewrite app_nth2 by lia. replace (length p - length p)%nat with 0%nat by lia. reflexivity.
          + destruct (Nat.lt_ge_cases k (length p)) as [Hlt|Hge].
            * rewrite !app_nth1 by exact Hlt. reflexivity.
            * rewrite !app_nth2 by exact Hge. destruct (k - length p)%nat as [|[|q]] eqn:Eq; [lia|lia|reflexivity]. }
      rewrite E. apply swap_walk; [lia|lia|exact Hx].
    - destruct (IH1 p Hx) as (m1 & W1). pose proof (proj2 (walk_in _ _ _ _ _ W1)) as Hy.
      destruct (IH2 p Hy) as (m2 & W2). exists (m1 + m2)%nat. exact (walk_app space T _ _ _ _ _ W1 W2).
  Qed.

  (** A repeated value can be brought onto any two different sites. *)
  Lemma bring x i j : In x space -> (i < n)%nat -> (j < n)%nat -> i <> j -> ~ NoDup x ->
    exists y, In y space /\ nth i y 0%Z = nth j y 0%Z.
  Proof.
    intros Hx Hi Hj Hij Hdup. destruct (Hsp x Hx) as [Hl _].
    assert (Hab : exists a b, (a < n)%nat /\ (b < n)%nat /\ a <> b /\ nth a x 0%Z = nth b x 0%Z).
    { clear - Hdup Hl. subst n. induction x as [|v x IH]; [exfalso; apply Hdup; constructor|].
      destruct (in_dec Z.eq_dec v x) as [Hin|Hout].
      - apply (In_nth x v 0%Z) in Hin. destruct Hin as (b & Hb & E). exists 0%nat, (S b). cbn [length nth].
        repeat split; lia.
      - destruct IH as (a & b & Ha & Hb & Hne & E).
        + intros Hn. apply Hdup. constructor; assumption.
        + exists (S a), (S b). cbn [length nth]. repeat split; lia. }
    destruct Hab as (a & b & La & Lb & Nab & E).
    set (x1 := swap a i x). assert (S1 : In x1 space) by (apply in_space_swap; assumption).
    assert (L1 : length x1 = n) by (apply (Hsp x1 S1)).
    assert (Hc : exists c, (c < n)%nat /\ c <> i /\ nth c x1 0%Z = nth i x1 0%Z).
    { destruct (Nat.eq_dec b i) as [->|Nbi].
      - exists a. split; [exact La|]. split; [exact Nab|]. unfold x1. rewrite !swap_nth by lia.
        rewrite Nat.eqb_refl. destruct (Nat.eqb_spec a i) as [|_]; [contradiction|].
        rewrite Nat.eqb_refl. congruence.
      - exists b. split; [exact Lb|]. split; [exact Nbi|]. unfold x1. rewrite !swap_nth by lia.
        rewrite Nat.eqb_refl. destruct (Nat.eqb_spec b i) as [|_]; [contradiction|].
        destruct (Nat.eqb_spec b a) as [|_]; [congruence|]. congruence. }
    destruct Hc as (c & Lc & Nci & Ec).
    exists (swap c j x1). split; [apply in_space_swap; assumption|].
    rewrite !swap_nth by lia. rewrite Nat.eqb_refl.
    destruct (Nat.eqb_spec i j) as [|_]; [contradiction|].
    destruct (Nat.eqb_spec i c) as [|_]; [congruence|]. congruence.
  Qed.

  Lemma stay x : In x space -> clusters <> [] -> ~ NoDup x -> odd_return space T.
  Proof.
    intros Hx Hne Hdup. destruct clusters as [|[ci cj] cs] eqn:E; [congruence|]. rewrite <- E in *.
    assert (Hc : In (ci, cj) clusters) by (rewrite E; left; reflexivity).
    pose proof (proj1 (Forall_forall _ _) Hon _ Hc) as [B1 B2]. cbn [fst snd] in *.
    assert (Hy : exists y, In y space /\ swap (Z.to_nat ci) (Z.to_nat cj) y = y).
    { destruct (Nat.eq_dec (Z.to_nat ci) (Z.to_nat cj)) as [Eij|Nij].
      - exists x. split; [exact Hx|]. rewrite Eij. apply swap_id. rewrite (proj1 (Hsp x Hx)). lia.
      - destruct (bring x (Z.to_nat ci) (Z.to_nat cj) Hx) as (y & Hy & Ey); [lia|lia|exact Nij|exact Hdup|].
        exists y. split; [exact Hy|]. pose proof (proj1 (Hsp y Hy)) as Ly.
        apply (nth_ext _ _ 0%Z 0%Z); [apply swap_length|]. intros k _. rewrite swap_nth by lia.
        destruct (Nat.eqb_spec k (Z.to_nat cj)) as [->|_]; [exact Ey|].
        destruct (Nat.eqb_spec k (Z.to_nat ci)) as [->|_]; [congruence|reflexivity]. }
    destruct Hy as (y & Hy & Ey). exists y, 1%nat. split; [exists 0%nat; reflexivity|].
    pose proof (cluster_walk _ y Hc Hy) as W. pose proof (proj1 (Hsp y Hy)) as Ly.
    rewrite exchange_swap in W by (cbn [fst snd]; lia). cbn [fst snd] in W. rewrite Ey in W. exact W.
  Qed.
End Exchange.

Lemma exchange_mixes x0 clusters space psi mp a :
  NoDup space -> clusters <> [] -> on_sites (length x0) clusters ->
  (forall x, In x space <-> Permutation x0 x) ->
  (forall i j, (i < length x0)%nat -> (j < length x0)%nat -> linked clusters i j) ->
  (forall x y, In x space -> In y space ->
     probability_of (accepts psi mp (fun _ _ => None) x y) (a x y)) ->
  ~ NoDup x0 \/ (exists x y, In x space /\ In y space /\ target psi mp x <> target psi mp y) ->
  mixes space (kernel cfg_eqd space (exchange_T clusters) a) (target psi mp).
Proof.
  intros Hnd Hne Hon Hs0 Hlink Ha Hlive.
  assert (Hsp : forall x, In x space -> length x = length x0 /\ forall y, Permutation x y -> In y space).
  { intros x Hx. apply Hs0 in Hx. split; [symmetry; apply Permutation_length, Hx|].
    intros y Hy. apply Hs0. eapply Permutation_trans; eassumption. }
  pose proof (exchange_proposal (length x0) clusters space Hnd Hne Hon Hsp) as HT.
  assert (Hsym : forall x y, In x space -> In y space -> exchange_T clusters y x = exchange_T clusters x y).
  { intros x y Hx Hy. apply (exchange_T_sym (length x0)); auto; apply Hsp; assumption. }
  assert (Hc : corrected space (exchange_T clusters) (fun _ _ => None)).
  { intros x y Hx Hy _. apply Hsym; assumption. }
  assert (Hcon : connected space (exchange_T clusters)).
  { intros x y Hx Hy. apply (perm_walk (length x0) clusters space Hon Hsp Hlink x y) with (p := []); [|exact Hx].
    apply Hs0 in Hx. apply Hs0 in Hy. eapply Permutation_trans; [apply Permutation_sym, Hx|exact Hy]. }
  apply (mixes_if cfg_eqd space Hnd psi mp (fun _ _ => None) _ a HT Hc Ha Hcon).
  destruct Hlive as [Hdup|(x & y & Hx & Hy & Hd)].
  - left. apply (stay (length x0) clusters space Hon Hsp Hlink x0); auto. apply Hs0, Permutation_refl.
  - right. destruct (Hcon x y Hx Hy) as (m & Hw).
    destruct (walk_changes space _ (target psi mp) m x y Hw Hd) as (u & v & Hu & Hv & H1 & H2 & Hlt).
    apply (reject_at space psi mp (fun _ _ => None) _ a Ha u v Hu Hv H1).
    apply (downhill space psi mp (fun _ _ => None) _ a HT Hc Ha u v Hu Hv H1); auto.
Qed.

(** ** HamiltonianRule *)
Section Ham.
  Variable conn : cfg -> list cfg.
  Variable space : list cfg.
  Hypothesis Hcl : forall x, In x space -> conn x <> [] /\ forall y, In y (conn x) -> In y space.
  Hypothesis Hsym : forall x y, In x space -> In y space ->
    count_occ cfg_eqd (conn x) y = count_occ cfg_eqd (conn y) x.

  Lemma ham_edge x y : In x space -> In y (conn x) -> In y space /\ 0 < ham_T conn x y /\ 0 < ham_T conn y x.
  Proof.
    intros Hx Hy. pose proof (proj2 (Hcl x Hx) y Hy) as Hys. split; [exact Hys|]. unfold ham_T. split.
    - apply uniform_prob_pos. rewrite map_id. exact Hy.
    - apply uniform_prob_pos. rewrite map_id. apply (count_occ_In cfg_eqd).
      rewrite <- Hsym by assumption. apply (count_occ_In cfg_eqd). exact Hy.
  Qed.

  Lemma joined_walk x y : In x space -> joined conn x y -> exists m, walk space (ham_T conn) m x y.
  Proof.
    intros Hx H. unfold joined in H. apply clos_rt_rt1n in H.
    induction H as [x|x y z Hxy Hyz IH]; [exists 0%nat; constructor; exact Hx|].
    destruct (ham_edge x y Hx Hxy) as (Hy & H1 & H2). destruct (IH Hy) as (m & Hm).
    exists (S m). apply (walk_cons space (ham_T conn) m x y z); assumption.
  Qed.
End Ham.

Lemma ham_T_eq conn x y : ham_T conn x y = INR (count_occ cfg_eqd (conn x) y) / INR (length (conn x)).
Proof. unfold ham_T, uniform_prob. rewrite map_id. reflexivity. Qed.

Lemma hamiltonian_mixes conn space psi mp a :
  NoDup space ->
  (forall x, In x space -> conn x <> [] /\ forall y, In y (conn x) -> In y space) ->
  (forall x y, In x space -> In y space ->
     count_occ cfg_eqd (conn x) y = count_occ cfg_eqd (conn y) x) ->
  (forall x y, In x space -> In y space -> joined conn x y) ->
  (forall x y, In x space -> In y space ->
     probability_of (accepts psi mp (fun x y =>
       Some (Fin (ln (INR (length (conn x))) - ln (INR (length (conn y)))))) x y) (a x y)) ->
  (exists x, In x space /\ In x (conn x)) \/
  (exists x y, In x space /\ In y space /\
     target psi mp x * INR (length (conn y)) <> target psi mp y * INR (length (conn x))) ->
  mixes space (kernel cfg_eqd space (ham_T conn) a) (target psi mp).
Proof.
  intros Hnd Hcl Hsym Hj Ha Hlive.
  pose proof (uniform_proposal conn (fun _ y => y) space Hnd Hcl) as HT.
  pose proof (ham_corrected space conn Hsym) as Hc.
  assert (Hcon : connected space (ham_T conn)).
  { intros x y Hx Hy. apply (joined_walk conn space Hcl Hsym x y Hx (Hj x y Hx Hy)). }
  assert (Hpos : forall x, In x space -> 0 < INR (length (conn x))).
  { intros x Hx. apply lt_0_INR. destruct (Hcl x Hx) as [Hne _]. destruct (conn x); [congruence|cbn; lia]. }
  apply (mixes_if cfg_eqd space Hnd psi mp _ (ham_T conn) a HT Hc Ha Hcon).
  destruct Hlive as [(x & Hx & Hxx)|(x & y & Hx & Hy & Hd)].
  - left. exists x, 1%nat. split; [exists 0%nat; reflexivity|].
    destruct (ham_edge conn space Hcl Hsym x x Hx Hxx) as (_ & H1 & _). apply walk_one; assumption.
  - right. destruct (Hcon x y Hx Hy) as (m & Hw).
    destruct (walk_changes space _ (fun x => target psi mp x / INR (length (conn x))) m x y Hw)
      as (u & v & Hu & Hv & H1 & H2 & Hlt).
    { intros E. apply Hd. pose proof (Hpos x Hx). pose proof (Hpos y Hy).
      apply (Rmult_eq_compat_r (INR (length (conn x)) * INR (length (conn y)))) in E.
      field_simplify in E; lra. }
    apply (reject_at space psi mp _ (ham_T conn) a Ha u v Hu Hv H1).
    rewrite (accept_ratio space psi mp _ (ham_T conn) a HT Hc Ha u v Hu Hv H1).
    eapply Rle_lt_trans; [apply Rmin_r|]. pose proof (tpos psi mp u) as Pu. pose proof (tpos psi mp v) as Pv.
    pose proof (Hpos u Hu). pose proof (Hpos v Hv).
    apply (Rmult_lt_reg_r (target psi mp u * ham_T conn u v)); [apply Rmult_lt_0_compat; assumption|].
    unfold Rdiv at 1. rewrite Rmult_assoc, Rinv_l, Rmult_1_r, Rmult_1_l
      by (apply Rgt_not_eq, Rmult_lt_0_compat; assumption).
    rewrite !ham_T_eq in *. rewrite (Hsym v u) by assumption.
    set (c := INR (count_occ cfg_eqd (conn u) v)) in *.
    assert (Hcp : 0 < c).
    { destruct (Rle_lt_or_eq_dec 0 c) as [|E]; [apply pos_INR|assumption|]. rewrite <- E in H1. lra. }
    replace (target psi mp v * (c / INR (length (conn v)))) with (c * (target psi mp v / INR (length (conn v))))
      by (unfold Rdiv; ring).
    replace (target psi mp u * (c / INR (length (conn u)))) with (c * (target psi mp u / INR (length (conn u))))
      by (unfold Rdiv; ring).
    apply Rmult_lt_compat_l; assumption.
Qed.
