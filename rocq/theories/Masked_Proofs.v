(** * Proofs about the masked layers *)
From Coq Require Import List Arith ZArith Lia Bool Ring.
From Verif Require Import Base Rings Masked_Model Masked_Spec.
Import ListNotations.
Open Scope nat_scope.

(** ** Lists *)
Lemma nth_map_seq' {A} (f : nat -> A) d a n i : i < n -> nth i (map f (seq a n)) d = f (a + i).
Proof.
  revert a i. induction n as [|n IH]; intros a i H; [lia|]. destruct i as [|i]; cbn [seq map nth].
  - f_equal. lia.
  - rewrite IH by lia. f_equal. lia.
Qed.
Lemma map_seq_over {A} (f : nat -> A) d a n i : n <= i -> nth i (map f (seq a n)) d = d.
Proof. intros H. apply nth_overflow. rewrite map_length, seq_length. exact H. Qed.

Lemma skipn_seq' a n k : skipn k (seq a n) = seq (a + k) (n - k).
Proof.
  revert a n. induction k as [|k IH]; intros a n; cbn [skipn].
  - f_equal; lia.
  - destruct n as [|n]; cbn [seq]; [reflexivity|]. rewrite IH. f_equal; lia.
Qed.
Lemma firstn_seq' a n k : k <= n -> firstn k (seq a n) = seq a k.
Proof.
  revert a n. induction k as [|k IH]; intros a n H; [reflexivity|]. destruct n as [|n]; [lia|].
  cbn [seq firstn]. rewrite IH by lia. reflexivity.
Qed.

Lemma map_nth' {A B} (f : A -> B) d d' l i : f d = d' -> nth i (map f l) d' = f (nth i l d).
Proof. intros <-. apply map_nth. Qed.
Lemma nth_nil' {A} (d : A) n : nth n [] d = d.
Proof. destruct n; reflexivity. Qed.
Lemma nth_repeat_in {A} (v d : A) k n : n < k -> nth n (repeat v k) d = v.
Proof. revert n. induction k; destruct n; cbn; intros; try lia; auto. apply IHk. lia. Qed.

Lemma reshape_length {A} n m (l : list A) : length (reshape n m l) = n.
Proof. revert l. induction n; intros l; cbn; [reflexivity|]. rewrite IHn. reflexivity. Qed.
Lemma reshape_nth {A} n m (l : list A) s : s < n -> nth s (reshape n m l) [] = firstn m (skipn (s * m) l).
Proof.
  revert l s. induction n as [|n IH]; intros l s H; [lia|]. destruct s as [|s]; cbn [reshape nth Nat.mul].
  - reflexivity.
  - rewrite IH by lia. rewrite Nat.add_comm. f_equal.
    clear. revert l. induction m as [|m IHm]; intros l.
    + rewrite Nat.add_0_r. reflexivity.
    + rewrite Nat.add_succ_r. destruct l as [|x l]; cbn [skipn]; [destruct (s * S m); reflexivity|].
      generalize (s * S m) as k. clear. intros k. revert k l. induction m as [|m IHm]; intros k l; cbn [skipn].
      * rewrite Nat.add_0_r. reflexivity.
      * destruct l as [|y l]; [destruct k; reflexivity|]. rewrite Nat.add_succ_r. cbn [skipn]. apply IHm.
Qed.
Lemma reshape_map_seq {A} (g : nat -> A) n m s : s < n ->
  nth s (reshape n m (map g (seq 0 (n * m)))) [] = map (fun f => g (s * m + f)) (seq 0 m).
Proof.
  intros H. rewrite reshape_nth by exact H. rewrite skipn_map, firstn_map, skipn_seq', firstn_seq'.
  - rewrite Nat.add_0_l. generalize (s * m). clear. intros k.
    assert (G : forall a, map g (seq (k + a) m) = map (fun f => g (k + f)) (seq a m)).
    { induction m as [|m IH]; intros a; cbn [seq map]; [reflexivity|]. f_equal.
      rewrite <- IH. f_equal. f_equal. lia. }
    specialize (G 0). rewrite Nat.add_0_r in G. exact G.
  - nia.
Qed.

Lemma nth_concat {A} (d : A) c (x : list (list A)) p : 0 < c -> Forall (fun r => length r = c) x ->
  nth p (concat x) d = nth (p mod c) (nth (p / c) x []) d.
Proof.
  intros Hc. revert p. induction x as [|r x IH]; intros p H.
  - cbn [concat]. destruct (p / c); cbn [nth]; destruct p, (_ mod c); reflexivity.
  - apply Forall_cons_iff in H. destruct H as [H1 H2]. cbn [concat].
    destruct (Nat.lt_ge_cases p c) as [Hp|Hp].
    + rewrite app_nth1 by lia. rewrite Nat.div_small, Nat.mod_small by exact Hp. reflexivity.
    + rewrite app_nth2 by lia. rewrite IH by exact H2. rewrite H1.
      replace p with (p - c + 1 * c) at 3 4 by lia. rewrite Nat.div_add, Nat.mod_add by lia.
      rewrite Nat.add_1_r. reflexivity.
Qed.

Lemma shaped_width {A} n c (x : list (list A)) : shaped n c x -> 0 < n -> width x = c.
Proof. intros [H1 H2] Hn. destruct x as [|r x]; cbn in *; [lia|]. inversion H2; auto. Qed.

Section Layers.
  Variable C : cring.
  Hypothesis L : cring_laws C.
  Add Ring Cring : (cr_ring C L).
  Notation "0" := (r0 C).
  Notation "1" := (r1 C).
  Infix "+" := (radd C).
  Infix "*" := (rmul C).

  (** ** Dense layer *)
  Definition dense_val (exclusive : bool) features (kernel : nat -> nat -> T C)
      (bias : option (nat -> nat -> T C)) (x : rows C) s f : T C :=
    let v := fsum C (length x * width x)%nat (fun p => nth p (concat x) 0 *
      (kron_ones C (triu C (b2n exclusive)) (width x) features p (s * features + f)%nat
       * kernel p (s * features + f)%nat)) in
    match bias with None => v | Some b => v + b s f end.

  Lemma masked_dense_length e F k b x : length (masked_dense C e F k b x) = length x.
  Proof. unfold masked_dense. destruct b; [rewrite map_length, seq_length|rewrite reshape_length]; reflexivity. Qed.
  Lemma masked_dense_row e F k b x s : s < length x ->
    nth s (masked_dense C e F k b x) [] = map (dense_val e F k b x s) (seq O F).
  Proof.
    intros H. unfold masked_dense. cbn zeta. destruct b as [b|].
    - rewrite nth_map_seq' by exact H. rewrite Nat.add_0_l. apply map_ext_in. intros f Hf. apply in_seq in Hf.
      unfold cell. rewrite reshape_map_seq by exact H. rewrite nth_map_seq' by lia. reflexivity.
    - rewrite reshape_map_seq by exact H. reflexivity.
  Qed.

  Lemma dense_val_agree e F k b n c x x' s f :
    shaped n c x -> shaped n c x' -> s < n -> f < F -> agree e s x x' ->
    dense_val e F k b x s f = dense_val e F k b x' s f.
  Proof.
    intros Hx Hx' Hs Hf Ha. unfold dense_val. cbn zeta.
    rewrite (shaped_width n c x), (shaped_width n c x') by (assumption || lia).
    destruct Hx as [Ln Hx], Hx' as [Ln' Hx']. rewrite Ln, Ln'.
    assert (E : fsum C (n * c)%nat (fun p => nth p (concat x) 0 *
        (kron_ones C (triu C (b2n e)) c F p (s * F + f)%nat * k p (s * F + f)%nat)) =
      fsum C (n * c)%nat (fun p => nth p (concat x') 0 *
        (kron_ones C (triu C (b2n e)) c F p (s * F + f)%nat * k p (s * F + f)%nat))).
    { apply fsum_ext. intros p Hp. assert (Hc : O < c) by (destruct c; lia).
      rewrite (nth_concat 0 c x), (nth_concat 0 c x') by assumption.
      unfold kron_ones, triu.
      replace ((s * F + f) / F)%nat with s by (apply Nat.div_unique with f; lia).
      destruct (Nat.leb_spec (p / c + b2n e) s) as [Hle|Hgt].
      - rewrite (Ha (p / c)); [reflexivity|]. unfold visible. destruct e; cbn [b2n] in Hle; [left; lia|].
        destruct (Nat.eq_dec (p / c) s); [right; auto|left; lia].
      - ring. }
    rewrite E. reflexivity.
  Qed.

  Lemma dense_autoregressive e F k b n c x x' i :
    shaped n c x -> shaped n c x' -> agree e i x x' ->
    nth i (masked_dense C e F k b x) [] = nth i (masked_dense C e F k b x') [].
  Proof.
    intros Hx Hx' Ha. destruct (Nat.lt_ge_cases i n) as [Hi|Hi].
    - rewrite !masked_dense_row by (destruct Hx, Hx'; unfold rows in *; lia). apply map_ext_in. intros f Hf. apply in_seq in Hf.
      apply (dense_val_agree e F k b n c); auto. lia.
    - rewrite !nth_overflow; [reflexivity|..]; rewrite masked_dense_length; destruct Hx, Hx'; unfold rows in *; lia.
  Qed.
  Lemma dense_shaped e F k b n c x : shaped n c x -> shaped n F (masked_dense C e F k b x).
  Proof.
    intros [H1 H2]. split; [rewrite masked_dense_length; exact H1|].
    apply Forall_forall. intros r Hr. apply (In_nth _ _ []) in Hr. destruct Hr as [s [Hs <-]].
    rewrite masked_dense_length in Hs. rewrite masked_dense_row by exact Hs.
    rewrite map_length, seq_length. reflexivity.
  Qed.

  (** ** One-dimensional convolution *)
  Definition conv_pad (exclusive : bool) ks d (x : rows C) : rows C :=
    repeat (repeat 0 (width x)) ((ks - b2n (negb exclusive)) * d) ++
    (if exclusive then firstn (length x - d) x else x).

  Lemma conv_pad_length e ks d x : ks <> O -> length (conv_pad e ks d x) =
    if e then (ks * d + (length x - d))%nat else ((ks - 1) * d + length x)%nat.
  Proof.
    intros H. unfold conv_pad. rewrite app_length, repeat_length. destruct e; cbn [b2n negb].
    - rewrite firstn_length, Nat.min_l by lia. lia.
    - lia.
  Qed.

  Lemma add_bias1_length b F (y : rows C) : length (add_bias1 C b F y) = length y.
  Proof. destruct b; [apply map_length|reflexivity]. Qed.
  Lemma add_bias1_nth b F (y y' : rows C) i : length y = length y' -> nth i y [] = nth i y' [] ->
    nth i (add_bias1 C b F y) [] = nth i (add_bias1 C b F y') [].
  Proof.
    intros Hl H. destruct b as [b|]; [|exact H]. cbn [add_bias1].
    set (g := fun r => map _ _). destruct (Nat.lt_ge_cases i (length y)) as [Hi|Hi].
    - rewrite (nth_indep _ _ (g [])) by (rewrite map_length; lia).
      rewrite (nth_indep (map g y') _ (g [])) by (rewrite map_length; lia). rewrite !map_nth, H. reflexivity.
    - rewrite !nth_overflow by (rewrite map_length; lia). reflexivity.
  Qed.

  Lemma conv_pad_cell e ks d n c x x' i k : ks <> O ->
    shaped n c x -> shaped n c x' -> agree e i x x' -> d <> O -> k < ks ->
    nth (i + k * d) (conv_pad e ks d x) [] = nth (i + k * d) (conv_pad e ks d x') [].
  Proof.
    intros Hks Hx Hx' Ha Hd Hk. unfold conv_pad.
    assert (Ew : repeat (repeat 0 (width x)) ((ks - b2n (negb e)) * d)
               = repeat (repeat 0 (width x')) ((ks - b2n (negb e)) * d) \/ n = O).
    { destruct n as [|n]; [right; reflexivity|left].
      rewrite (shaped_width (S n) c x), (shaped_width (S n) c x') by (assumption || lia). reflexivity. }
    destruct Ew as [Ew|En].
    2:{ destruct Hx as [Hx _], Hx' as [Hx' _]. rewrite En in *. apply length_zero_iff_nil in Hx, Hx'.
        subst. reflexivity. }
    rewrite Ew. set (P := repeat _ _). destruct (Nat.lt_ge_cases (i + k * d) (length P)) as [Hp|Hp].
    - rewrite !app_nth1 by exact Hp. reflexivity.
    - rewrite !app_nth2 by exact Hp. destruct Hx as [Lx _], Hx' as [Lx' _].
      unfold P in *. rewrite repeat_length in *. destruct e; cbn [b2n negb] in *.
      + rewrite Lx, Lx'. rewrite !Nat.sub_0_r in *. set (j := i + k * d - ks * d) in *.
        assert (Hj : j < i) by (unfold j; nia).
        destruct (Nat.lt_ge_cases j (n - d)) as [Hj'|Hj'].
        * rewrite <- (firstn_skipn (n - d) x) in Ha at 1. specialize (Ha j (or_introl Hj)).
          rewrite app_nth1 in Ha by (rewrite firstn_length; lia). rewrite Ha.
          rewrite <- (firstn_skipn (n - d) x') at 1. apply app_nth1. rewrite firstn_length. lia.
        * rewrite !nth_overflow by (rewrite firstn_length; lia). reflexivity.
      + apply Ha. unfold visible. assert (i + k * d - (ks - 1) * d <= i) by nia.
        destruct (Nat.eq_dec (i + k * d - (ks - 1) * d) i); [right; auto|left; lia].
  Qed.

  Lemma conv1d_length y cin ks d F g k : length (conv1d C y cin ks d F g k) = (length y + 1 - ((ks - 1) * d + 1))%nat.
  Proof. unfold conv1d. rewrite map_length, seq_length. reflexivity. Qed.

  Lemma conv1d_nth y y' cin ks d F g k i : length y = length y' ->
    (forall kk, kk < ks -> nth (i + kk * d) y [] = nth (i + kk * d) y' []) ->
    nth i (conv1d C y cin ks d F g k) [] = nth i (conv1d C y' cin ks d F g k) [].
  Proof.
    intros Hl H. destruct (Nat.lt_ge_cases i (length y + 1 - ((ks - 1) * d + 1))) as [Hi|Hi].
    - unfold conv1d. rewrite <- Hl. rewrite !nth_map_seq' by exact Hi. apply map_ext. intros o.
      apply fsum_ext. intros kk Hkk. apply fsum_ext. intros cc Hcc. unfold cell. rewrite !Nat.add_0_l.
      rewrite H by exact Hkk. reflexivity.
    - rewrite !nth_overflow; [reflexivity|..]; rewrite conv1d_length; lia.
  Qed.

  Lemma masked_conv1d_ok e F ks d g k b x y : masked_conv1d C e F ks d g k b x = Ok y ->
    g <> O /\ (width x mod g = 0)%nat /\ (ks - b2n e)%nat <> O /\ d <> O /\ (F mod g = 0)%nat /\
    y = add_bias1 C b F (conv1d C (conv_pad e (ks - b2n e) d x) (width x) (ks - b2n e) d F g k).
  Proof.
    unfold masked_conv1d. cbn zeta. destruct (Nat.eqb_spec g O); [discriminate|].
    destruct (Nat.eqb_spec (width x mod g) 0); cbn [negb]; [|discriminate].
    destruct (Nat.eqb_spec (ks - b2n e) 0); cbn [orb]; [discriminate|].
    destruct (Nat.eqb_spec d O); cbn [orb]; [discriminate|].
    destruct (Nat.eqb_spec (F mod g) 0); cbn [negb]; [|discriminate].
    intros E. inversion E. repeat (split; [assumption|]). reflexivity.
  Qed.
  Lemma masked_conv1d_ok' e F ks d g k b x x' : width x = width x' ->
    is_ok (masked_conv1d C e F ks d g k b x) = is_ok (masked_conv1d C e F ks d g k b x').
  Proof.
    intros Hw. unfold masked_conv1d. cbn zeta. rewrite Hw.
    destruct (g =? O); [reflexivity|]. destruct (negb _); [reflexivity|]. destruct (_ || _); reflexivity.
  Qed.

  Lemma same_width n c (x x' : rows C) : shaped n c x -> shaped n c x' -> width x = width x'.
  Proof.
    intros Hx Hx'. destruct n as [|n].
    - destruct Hx as [Hx _], Hx' as [Hx' _]. apply length_zero_iff_nil in Hx, Hx'. subst. reflexivity.
    - rewrite (shaped_width (S n) c x), (shaped_width (S n) c x') by (assumption || lia). reflexivity.
  Qed.

  Lemma conv_autoregressive e F ks d g k b n c x x' y i :
    shaped n c x -> shaped n c x' -> agree e i x x' ->
    masked_conv1d C e F ks d g k b x = Ok y ->
    exists y', masked_conv1d C e F ks d g k b x' = Ok y' /\ nth i y [] = nth i y' [].
  Proof.
    intros Hx Hx' Ha H. pose proof (same_width n c x x' Hx Hx') as Hw.
    pose proof (masked_conv1d_ok' e F ks d g k b x x' Hw) as Ho. rewrite H in Ho.
    destruct (masked_conv1d C e F ks d g k b x') as [y'|] eqn:H'; [|discriminate].
    exists y'. split; [reflexivity|].
    apply masked_conv1d_ok in H, H'. destruct H as (_ & _ & Hk & Hd & _ & ->), H' as (_ & _ & _ & _ & _ & ->).
    rewrite <- Hw. assert (El : length (conv_pad e (ks - b2n e) d x) = length (conv_pad e (ks - b2n e) d x')).
    { rewrite !conv_pad_length by exact Hk. destruct Hx as [-> _], Hx' as [-> _]. reflexivity. }
    apply add_bias1_nth; [rewrite !conv1d_length, El; reflexivity|].
    apply conv1d_nth; [exact El|]. intros kk Hkk. apply (conv_pad_cell e _ d n c); auto.
  Qed.

  Lemma conv_shaped e F ks d g k b n c x y : shaped n c x ->
    masked_conv1d C e F ks d g k b x = Ok y ->
    shaped (if e then Nat.max n d else n) F y.
  Proof.
    intros Hx H. apply masked_conv1d_ok in H. destruct H as (_ & _ & Hk & Hd & _ & ->). split.
    - rewrite add_bias1_length, conv1d_length, conv_pad_length by exact Hk. destruct Hx as [-> _].
      destruct e; cbn [b2n] in *; nia.
    - destruct b as [b|]; cbn [add_bias1]; apply Forall_forall; intros r Hr.
      + apply in_map_iff in Hr. destruct Hr as [r' [<- _]]. rewrite map_length, seq_length. reflexivity.
      + unfold conv1d in Hr. apply in_map_iff in Hr. destruct Hr as [i' [<- _]].
        rewrite map_length, seq_length. reflexivity.
  Qed.

  (** ** Networks *)
  Lemma layer_autoregressive e l n c x x' y i :
    shaped n c x -> shaped n c x' -> agree e i x x' -> apply_layer C e l x = Ok y ->
    exists y', apply_layer C e l x' = Ok y' /\ nth i y [] = nth i y' [].
  Proof.
    intros Hx Hx' Ha H. destruct l as [F k b|F ks d g k b]; cbn [apply_layer] in *.
    - eexists. split; [reflexivity|]. injection H as <-. apply (dense_autoregressive e F k b n c); assumption.
    - apply (conv_autoregressive e F ks d g k b n c x x' y i); assumption.
  Qed.
  Lemma layer_shaped e l n c x y : shaped n c x -> apply_layer C e l x = Ok y ->
    exists n' c', n <= n' /\
      (forall x' y', shaped n c x' -> apply_layer C e l x' = Ok y' -> shaped n' c' y') /\
      (e = false \/ (forall F ks d g k b, l = LConv F ks d g k b -> d <= n) -> n' = n).
  Proof.
    intros Hx H. destruct l as [F k b|F ks d g k b]; cbn [apply_layer] in *.
    - exists n, F. split; [lia|]. split; [|reflexivity]. intros x' y' Hs E. injection E as <-. apply (dense_shaped e F k b n c); assumption.
    - exists (if e then Nat.max n d else n), F. split; [destruct e; lia|]. split.
      + intros x' y' Hs E. eapply conv_shaped; eauto.
      + intros [->|Hd]; [reflexivity|]. destruct e; [|reflexivity]. specialize (Hd _ _ _ _ _ _ eq_refl). lia.
  Qed.

  Variable act : T C -> T C.

  Lemma act_shaped n c (x : rows C) : shaped n c x -> shaped n c (map (map act) x).
  Proof.
    intros [H1 H2]. split; [rewrite map_length; exact H1|]. rewrite Forall_forall in *. intros r Hr.
    apply in_map_iff in Hr. destruct Hr as [r' [<- Hr']]. rewrite map_length. auto.
  Qed.
  Lemma act_nth j (x : rows C) : nth j (map (map act) x) [] = map act (nth j x []).
  Proof. change (@nil (T C)) with (map act []) at 1. apply map_nth. Qed.

  Lemma forward_autoregressive ls : forall n c m x x' y i,
    shaped n c x -> shaped n c x' ->
    agree (m =? O) i x x' -> (m = O -> ls <> []) -> (m <> O -> agree false i x x') ->
    forward C act m ls x = Ok y ->
    exists y', forward C act m ls x' = Ok y' /\ nth i y [] = nth i y' [].
  Proof.
    induction ls as [|l ls IH]; intros n c m x x' y i Hx Hx' Ha Hm Hm' H.
    - cbn [forward] in *. inversion H; subst. exists x'. split; [reflexivity|].
      destruct m as [|m]; [exfalso; apply Hm; reflexivity|]. apply (Hm' ltac:(lia)). right. auto.
    - cbn [forward] in H |- *.
      set (ax := if O <? m then map (map act) x else x) in *.
      set (ax' := if O <? m then map (map act) x' else x') in *.
      assert (Sx : shaped n c ax) by (unfold ax; destruct (O <? m); [apply act_shaped|]; assumption).
      assert (Sx' : shaped n c ax') by (unfold ax'; destruct (O <? m); [apply act_shaped|]; assumption).
      assert (Aa : forall e s, agree e s x x' -> agree e s ax ax').
      { intros e s Hs j Hj. unfold ax, ax'. destruct (O <? m); [rewrite !act_nth; f_equal|]; apply Hs, Hj. }
      destruct (apply_layer C (m =? O) l ax) as [y1|] eqn:E; [|discriminate]. cbn [bind] in H.
      assert (E1 : forall s, s <= i ->
         exists y1', apply_layer C (m =? O) l ax' = Ok y1' /\ nth s y1 [] = nth s y1' []).
      { intros s Hs. apply (layer_autoregressive (m =? O) l n c ax ax' y1 s); auto. apply Aa.
        intros j [Hj|[He ->]].
        - apply Ha. left. lia.
        - destruct (Nat.eq_dec s i) as [->|Hne]; [apply Ha; right; auto|apply Ha; left; lia]. }
      destruct (E1 i (le_n i)) as [y1' [Ey' _]]. rewrite Ey'. cbn [bind].
      destruct (layer_shaped (m =? O) l n c ax y1 Sx E) as (n' & c' & _ & Hsh & _).
      assert (A1 : agree false i y1 y1').
      { intros j Hj. assert (Hle : j <= i) by (destruct Hj as [|[_ ->]]; lia).
        destruct (E1 j Hle) as [y2 [Ey2 En]]. rewrite Ey' in Ey2. inversion Ey2; subst. exact En. }
      apply (IH n' c' (S m) y1 y1' y i).
      + apply (Hsh ax y1 Sx E).
      + apply (Hsh ax' y1' Sx' Ey').
      + exact A1.
      + discriminate.
      + intros _. exact A1.
      + exact H.
  Qed.

  Lemma network_autoregressive ls (s s' : list (T C)) y i : ls <> [] -> length s = length s' ->
    same_before i s s' -> network C act ls s = Ok y ->
    exists y', network C act ls s' = Ok y' /\ nth i y [] = nth i y' [].
  Proof.
    intros Hls Hl Hs H. unfold network in *.
    assert (Sh : forall t : list (T C), shaped (length t) 1 (map (fun v => [v]) t)).
    { intros t. split; [apply map_length|]. apply Forall_forall. intros r Hr. apply in_map_iff in Hr.
      destruct Hr as [v [<- _]]. reflexivity. }
    apply (forward_autoregressive ls (length s) 1 O (map (fun v => [v]) s) (map (fun v => [v]) s') y i).
    - apply Sh.
    - rewrite Hl. apply Sh.
    - intros j [Hj|[He _]]; [|discriminate].
      assert (G : forall t : list (T C), nth j (map (fun v => [v]) t) [] = nth j (map (fun v => [v]) (firstn i t)) []).
      { intros t. rewrite <- (firstn_skipn i t) at 1. rewrite map_app.
        destruct (Nat.lt_ge_cases j (length (firstn i t))) as [Hj'|Hj'].
        - apply app_nth1. rewrite map_length. exact Hj'.
        - rewrite !nth_overflow; [reflexivity|..]; rewrite ?app_length, !map_length, ?skipn_length; [lia|].
          rewrite firstn_length in *. lia. }
      rewrite (G s), (G s'). unfold same_before in Hs. rewrite Hs. reflexivity.
    - intros _. exact Hls.
    - intros Hf. exfalso. apply Hf. reflexivity.
    - exact H.
  Qed.

  (** No site is lost or added when the dilation of the first layer fits. *)
  Definition fits (n : nat) (ls : list (layer C)) : Prop :=
    match ls with LConv _ _ d _ _ _ :: _ => d <= n | _ => True end.
  Lemma forward_length ls : forall n c m x y, shaped n c x -> (m = O -> fits n ls) ->
    forward C act m ls x = Ok y -> length y = n.
  Proof.
    induction ls as [|l ls IH]; intros n c m x y Hx Hf H; cbn [forward] in H.
    - inversion H; subst. apply Hx.
    - set (ax := if O <? m then map (map act) x else x) in *.
      assert (Sx : shaped n c ax) by (unfold ax; destruct (O <? m); [apply act_shaped|]; assumption).
      destruct (apply_layer C (m =? O) l ax) as [y1|] eqn:E; [|discriminate]. cbn [bind] in H.
      destruct (layer_shaped (m =? O) l n c ax y1 Sx E) as (n' & c' & _ & Hsh & Hn).
      rewrite Hn in Hsh.
      + apply (IH n c' (S m) y1 y); eauto. discriminate.
      + destruct (Nat.eqb_spec m O) as [->|]; [right|left; reflexivity].
        intros F ks d g k b ->. apply (Hf eq_refl).
  Qed.
  Lemma network_length ls s y : fits (length s) ls -> network C act ls s = Ok y -> length y = length s.
  Proof.
    intros Hf H. apply (forward_length ls (length s) 1 O (map (fun v => [v]) s) y); auto.
    split; [apply map_length|]. apply Forall_forall. intros r Hr. apply in_map_iff in Hr.
    destruct Hr as [v [<- _]]. reflexivity.
  Qed.
  (** ** Two-dimensional convolution *)
  Definition pad2 kh kw dh dw (x : list (rows C)) : list (rows C) :=
    let z := repeat 0 (width (hd [] x)) in
    repeat (repeat z (kw / 2 * dw + width x + (kw - 1) / 2 * dw)%nat) ((kh - 1) * dh) ++
    map (fun r => repeat z (kw / 2 * dw) ++ r ++ repeat z ((kw - 1) / 2 * dw)) x.

  Lemma masked_conv2d_ok e F kh kw dh dw g k b x y : masked_conv2d C e F kh kw dh dw g k b x = Ok y ->
    g <> O /\ kh <> O /\ kw <> O /\ dh <> O /\ dw <> O /\
    y = map (add_bias1 C b F) (conv2d C (pad2 kh kw dh dw x) (width (hd [] x)) kh kw dh dw F g
          (fun a b c o => conv_mask C e kh kw a b * k a b c o)).
  Proof.
    unfold masked_conv2d. cbn zeta. destruct (Nat.eqb_spec g O); [discriminate|].
    destruct (Nat.eqb_spec (width (hd [] x) mod g) 0); cbn [negb]; [|discriminate].
    destruct (Nat.eqb_spec kh 0); cbn [orb]; [discriminate|].
    destruct (Nat.eqb_spec kw 0); cbn [orb]; [discriminate|].
    destruct (Nat.eqb_spec dh 0); cbn [orb]; [discriminate|].
    destruct (Nat.eqb_spec dw 0); cbn [orb]; [discriminate|].
    destruct (Nat.eqb_spec (F mod g) 0); cbn [negb]; [|discriminate].
    intros E. inversion E. repeat (split; [assumption|]). reflexivity.
  Qed.

  Lemma shaped2_hd h w c (x : list (rows C)) : shaped2 h w c x -> O < h -> shaped w c (hd [] x).
  Proof. intros [H1 H2] Hh. destruct x; cbn in *; [lia|]. inversion H2; auto. Qed.
  Lemma shaped2_nth h w c (x : list (rows C)) i : shaped2 h w c x -> i < h -> shaped w c (nth i x []).
  Proof. intros [H1 H2] Hh. rewrite Forall_forall in H2. apply H2, nth_In. unfold rows in *. lia. Qed.

  Lemma pad2_length kh kw dh dw x : length (pad2 kh kw dh dw x) = ((kh - 1) * dh + length x)%nat.
  Proof. unfold pad2. rewrite app_length, repeat_length, map_length. reflexivity. Qed.

  (** Reading a padded image: zeros, or the entry of the image. *)
  Definition read2 (z : T C) kh kw dh dw (x : list (rows C)) R Q c' : T C :=
    if R <? (kh - 1) * dh then z
    else if Q <? kw / 2 * dw then z
    else cell2 C x (R - (kh - 1) * dh) (Q - kw / 2 * dw) c'.

  Lemma nth_repeat0 n m : nth n (repeat 0 m) 0 = 0.
  Proof. revert n. induction m; destruct n; cbn; auto. Qed.
  Lemma nth_repeat_zero n m k p : nth p (nth n (repeat (repeat 0 m) k) []) 0 = 0.
  Proof.
    destruct (Nat.lt_ge_cases n k) as [H|H].
    - rewrite nth_repeat_in by exact H. apply nth_repeat0.
    - rewrite (nth_overflow (repeat _ k)) by (rewrite repeat_length; exact H). destruct p; reflexivity.
  Qed.

  Lemma pad2_cell h w c kh kw dh dw x R Q c' : shaped2 h w c x -> O < h ->
    cell2 C (pad2 kh kw dh dw x) R Q c' = read2 0 kh kw dh dw x R Q c'.
  Proof.
    intros Hx Hh. unfold cell2, cell, pad2, read2. cbn zeta.
    destruct (Nat.ltb_spec R ((kh - 1) * dh)) as [HR|HR].
    - rewrite app_nth1 by (rewrite repeat_length; exact HR).
      rewrite nth_repeat_in by exact HR. apply nth_repeat_zero.
    - rewrite app_nth2 by (rewrite repeat_length; exact HR). rewrite repeat_length.
      set (i := R - (kh - 1) * dh). destruct (Nat.lt_ge_cases i h) as [Hi|Hi].
      2:{ rewrite (nth_overflow (map _ _)) by (rewrite map_length; destruct Hx; unfold rows in *; lia).
          unfold cell2, cell. rewrite (nth_overflow x) by (destruct Hx; lia).
          destruct (Q <? kw / 2 * dw); rewrite !nth_nil'; reflexivity. }
      match goal with |- context [map ?f x] => set (pf := f) end.
      rewrite (nth_indep _ [] (pf [])) by (rewrite map_length; destruct Hx; unfold rows in *; lia). rewrite map_nth. unfold pf.
      destruct (Nat.ltb_spec Q (kw / 2 * dw)) as [HQ|HQ].
      + rewrite app_nth1 by (rewrite repeat_length; exact HQ). apply nth_repeat_zero.
      + rewrite app_nth2 by (rewrite repeat_length; exact HQ). rewrite repeat_length.
        unfold cell2, cell. fold i. destruct (Nat.lt_ge_cases (Q - kw / 2 * dw) (length (nth i x []))) as [Hq|Hq].
        * rewrite app_nth1 by exact Hq. reflexivity.
        * rewrite app_nth2 by exact Hq. rewrite nth_repeat_zero.
          rewrite (nth_overflow (nth i x [])) by exact Hq. destruct c'; reflexivity.
  Qed.

  Lemma width_pad2 h w c kh kw dh dw (x : list (rows C)) : shaped2 h w c x -> O < h ->
    width (pad2 kh kw dh dw x) = (kw / 2 * dw + w + (kw - 1) / 2 * dw)%nat.
  Proof.
    intros Hx Hh. assert (E : width x = w).
    { pose proof (shaped2_hd h w c x Hx Hh) as [H _]. exact H. }
    unfold pad2. cbn zeta. destruct ((kh - 1) * dh)%nat as [|m]; cbn [repeat app].
    - destruct x as [|r x]; [destruct Hx as [Hx _]; cbn in Hx; lia|]. unfold width in *. cbn [map hd] in *.
      rewrite !app_length, !repeat_length. rewrite E. lia.
    - unfold width at 1. cbn [hd]. rewrite repeat_length, E. reflexivity.
  Qed.

  Lemma conv2_agree e kh kw dh dw h w c x x' i j a b k c' :
    shaped2 h w c x -> shaped2 h w c x' -> O < h -> agree2 e (i, j) x x' ->
    kh <> O -> kw <> O -> dh <> O -> dw <> O -> a < kh -> b < kw ->
    read2 0 kh kw dh dw x (i + a * dh) (j + b * dw) c' * (conv_mask C e kh kw a b * k) =
    read2 0 kh kw dh dw x' (i + a * dh) (j + b * dw) c' * (conv_mask C e kh kw a b * k).
  Proof.
    intros Hx Hx' Hh Ha Hkh Hkw Hdh Hdw Hak Hbk. unfold read2, conv_mask.
    destruct (Nat.ltb_spec (i + a * dh) ((kh - 1) * dh)); [reflexivity|].
    destruct (Nat.ltb_spec (j + b * dw) (kw / 2 * dw)); [reflexivity|].
    destruct (Nat.eqb_spec a (kh - 1)) as [->|Hne]; cbn [andb].
    - destruct (Nat.leb_spec (kw / 2 + b2n (negb e)) b) as [Hm|Hm]; [ring|].
      unfold cell2, cell, rows in *. specialize (Ha (i, j + b * dw - kw / 2 * dw)). cbn [fst snd] in Ha.
      replace (i + (kh - 1) * dh - (kh - 1) * dh) with i by lia. rewrite Ha; [reflexivity|].
      unfold visible2. cbn [fst snd]. destruct e; cbn [negb b2n] in Hm.
      + right; left. split; [reflexivity|]. nia.
      + destruct (Nat.eq_dec b (kw / 2)) as [->|]; [right; right; split; [reflexivity|f_equal; lia]|].
        right; left. split; [reflexivity|]. nia.
    - unfold cell2, cell, rows in *. specialize (Ha (i + a * dh - (kh - 1) * dh, j + b * dw - kw / 2 * dw)).
      cbn [fst snd] in Ha. rewrite Ha; [reflexivity|]. left. cbn [fst]. nia.
  Qed.

  Lemma conv2d_length y cin kh kw dh dw F g k :
    length (conv2d C y cin kh kw dh dw F g k) = (length y + 1 - ((kh - 1) * dh + 1))%nat.
  Proof. unfold conv2d. rewrite map_length, seq_length. reflexivity. Qed.

  Lemma conv2_autoregressive e F kh kw dh dw g k b h w c x x' y i j :
    shaped2 h w c x -> shaped2 h w c x' -> O < h -> O < w -> agree2 e (i, j) x x' ->
    masked_conv2d C e F kh kw dh dw g k b x = Ok y ->
    exists y', masked_conv2d C e F kh kw dh dw g k b x' = Ok y' /\
      nth j (nth i y []) [] = nth j (nth i y' []) [].
  Proof.
    intros Hx Hx' Hh Hw Ha H.
    assert (Ew : width (hd [] x) = c).
    { pose proof (shaped2_hd h w c x Hx Hh) as S. apply (shaped_width w c); assumption. }
    assert (Ew' : width (hd [] x') = c).
    { pose proof (shaped2_hd h w c x' Hx' Hh) as S. apply (shaped_width w c); assumption. }
    assert (Ho : is_ok (masked_conv2d C e F kh kw dh dw g k b x') = true).
    { transitivity (is_ok (masked_conv2d C e F kh kw dh dw g k b x)); [|rewrite H; reflexivity].
      unfold masked_conv2d. cbn zeta. rewrite Ew, Ew'. destruct (g =? O); [reflexivity|].
      destruct (negb _); [reflexivity|]. destruct (_ || _); reflexivity. }
    destruct (masked_conv2d C e F kh kw dh dw g k b x') as [y'|] eqn:H'; [|discriminate].
    exists y'. split; [reflexivity|]. apply masked_conv2d_ok in H, H'.
    destruct H as (_ & Hkh & Hkw & Hdh & Hdw & ->), H' as (_ & _ & _ & _ & _ & ->).
    rewrite Ew, Ew'.
    set (m := fun a b0 c0 o => _).
    assert (En : add_bias1 C b F [] = []) by (destruct b; reflexivity).
    rewrite !(map_nth' _ _ [] _ _ En).
    assert (E : forall j', j' = j -> nth j' (nth i (conv2d C (pad2 kh kw dh dw x) c kh kw dh dw F g m) []) [] =
                nth j' (nth i (conv2d C (pad2 kh kw dh dw x') c kh kw dh dw F g m) []) [] /\
                length (nth i (conv2d C (pad2 kh kw dh dw x) c kh kw dh dw F g m) []) =
                length (nth i (conv2d C (pad2 kh kw dh dw x') c kh kw dh dw F g m) [])).
    { intros j' ->. destruct (Nat.lt_ge_cases i h) as [Hi|Hi].
      2:{ rewrite !(nth_overflow _ (n := i)); [split; reflexivity|..]; rewrite conv2d_length, pad2_length;
          destruct Hx, Hx'; unfold rows in *; lia. }
      unfold conv2d. rewrite !pad2_length.
      rewrite !(fun f d a n => nth_map_seq' f d a n i) by (destruct Hx, Hx'; unfold rows in *; lia).
      rewrite (width_pad2 h w c kh kw dh dw x), (width_pad2 h w c kh kw dh dw x') by assumption.
      split; [|rewrite !map_length, !seq_length; reflexivity].
      match goal with |- nth j (map ?f (seq O ?n)) _ = nth j (map ?f' _) _ =>
        destruct (Nat.lt_ge_cases j n) as [Hj|Hj];
        [rewrite (nth_map_seq' f), (nth_map_seq' f') by exact Hj
        |rewrite !map_seq_over by exact Hj; reflexivity] end.
      apply map_ext. intros o. rewrite !Nat.add_0_l.
      apply fsum_ext. intros a Hak. apply fsum_ext. intros b0 Hbk. apply fsum_ext. intros c0 Hc0.
      rewrite (pad2_cell h w c kh kw dh dw x), (pad2_cell h w c kh kw dh dw x') by assumption.
      unfold m. apply (conv2_agree e kh kw dh dw h w c); assumption. }
    specialize (E j eq_refl). destruct E as [E1 E2]. apply add_bias1_nth; assumption.
  Qed.
  Lemma conv2_shape e F kh kw dh dw g k b h w c x y :
    shaped2 h w c x -> O < h -> masked_conv2d C e F kh kw dh dw g k b x = Ok y -> shaped2 h w F y.
  Proof.
    intros Hx Hh H. apply masked_conv2d_ok in H. destruct H as (_ & Hkh & Hkw & Hdh & Hdw & ->).
    assert (Ek : (kw / 2 + (kw - 1) / 2 = kw - 1)%nat).
    { destruct kw as [|kw]; [lia|]. replace (S kw - 1)%nat with kw by lia.
      destruct (Nat.even kw) eqn:Ev.
      - apply Nat.even_spec in Ev. destruct Ev as [q ->]. replace (S (2 * q)) with (1 + q * 2)%nat by lia.
        replace (2 * q)%nat with (q * 2)%nat by lia. rewrite Nat.div_add, Nat.div_mul by lia.
        change (1 / 2)%nat with O. lia.
      - assert (Od : Nat.odd kw = true) by (unfold Nat.odd; rewrite Ev; reflexivity).
        apply Nat.odd_spec in Od. destruct Od as [q ->]. replace (S (2 * q + 1)) with ((q + 1) * 2)%nat by lia.
        replace (2 * q + 1)%nat with (1 + q * 2)%nat by lia. rewrite Nat.div_add, Nat.div_mul by lia.
        change (1 / 2)%nat with O. lia. }
    split.
    - rewrite map_length, conv2d_length, pad2_length. destruct Hx as [Hx _]. unfold rows in *. lia.
    - apply Forall_forall. intros r Hr. apply in_map_iff in Hr. destruct Hr as [r' [<- Hr']].
      unfold conv2d in Hr'. apply in_map_iff in Hr'. destruct Hr' as [i [<- _]].
      rewrite (width_pad2 h w c) by assumption. split.
      + rewrite add_bias1_length, map_length, seq_length. nia.
      + apply Forall_forall. intros q Hq. destruct b as [b|]; cbn [add_bias1] in Hq.
        * apply in_map_iff in Hq. destruct Hq as [q' [<- _]]. rewrite map_length, seq_length. reflexivity.
        * apply in_map_iff in Hq. destruct Hq as [q' [<- _]]. rewrite map_length, seq_length. reflexivity.
  Qed.
End Layers.

Lemma dilation_wrong : exists (x y : list (list Z)), shaped 2 1 x /\
  masked_conv1d zC true 1 2 3 1 (fun _ _ _ => 1%Z) None x = Ok y /\ length y = 3.
Proof.
  exists [[1]; [2]]%Z, [[0]; [0]; [0]]%Z. split; [|split; reflexivity]. split; [reflexivity|].
  repeat constructor.
Qed.
