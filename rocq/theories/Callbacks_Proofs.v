From Coq Require Import List ZArith QArith Bool Lia.
From Verif Require Import Base Callbacks_Model Callbacks_Spec.
Import ListNotations.
Open Scope Z_scope.

Fixpoint early_after (c : early) (s : early_state) (l : list (Z * fl)) : early_state :=
  match l with [] => s | (st, lo) :: l => early_after c (snd (early_call c s st lo)) l end.

Lemma calls_app c l2 : forall l1 s,
  early_calls c s (l1 ++ l2) = early_calls c s l1 ++ early_calls c (early_after c s l1) l2.
Proof.
  induction l1 as [|[st lo] l1 IH]; intros s; [reflexivity|]. cbn [app early_calls early_after].
  destruct (early_call c s st lo) as [b s']. cbn [snd app]. rewrite IH. reflexivity.
Qed.
Lemma after_app c l2 : forall l1 s, early_after c s (l1 ++ l2) = early_after c (early_after c s l1) l2.
Proof. induction l1 as [|[st lo] l1 IH]; intros s; [reflexivity|]. cbn [app early_after]. apply IH. Qed.
Lemma calls_length c l : forall s, length (early_calls c s l) = length l.
Proof.
  induction l as [|[st lo] l IH]; intros s; [reflexivity|]. cbn. destruct (early_call c s st lo). cbn. rewrite IH. reflexivity.
Qed.

Lemma call_state c s st lo : snd (early_call c s st lo) = if fle lo (best_val s) then EState lo st else s.
Proof.
  unfold early_call. destruct (match baseline c with Some b => fle lo b | None => false end); [reflexivity|].
  destruct (_ && _); reflexivity.
Qed.

(** State after a non-empty finite history: the lowest loss and the last call that
    attains it. *)
Lemma after_spec c h : h <> [] ->
  exists m b, nth_error h m = Some b /\
    early_after c early_init (fin_hist h) = EState (Fin (snd b)) (fst b) /\
    lowest h m /\ forall i a, (m < i)%nat -> nth_error h i = Some a -> (snd b < snd a)%Q.
Proof.
  induction h as [|x h IH] using rev_ind; [congruence|]. intros _.
  unfold fin_hist. rewrite map_app, after_app. cbn [map early_after]. fold (fin_hist h).
  destruct h as [|y h0].
  - cbn [fin_hist map early_after]. rewrite call_state. cbn [best_val early_init fle].
    exists O, x. split; [reflexivity|]. split; [reflexivity|]. split.
    + exists x. split; [reflexivity|]. intros i a Hi. lia.
    + intros [|i] a Hi E; [lia|]. destruct i; discriminate.
  - set (h := y :: h0) in *. destruct IH as (m & b & Hm & Es & (b' & Hb' & Hlow) & Hlast); [discriminate|].
    rewrite Hm in Hb'. injection Hb' as <-.
    rewrite Es, call_state. cbn [best_val fle].
    assert (Hml : (m < length h)%nat) by (apply nth_error_Some; congruence).
    destruct (Qle_bool (snd x) (snd b)) eqn:Eq.
    + apply Qle_bool_iff in Eq. exists (length h), x.
      split; [rewrite nth_error_app2, Nat.sub_diag by lia; reflexivity|]. split; [reflexivity|]. split.
      * exists x. split; [rewrite nth_error_app2, Nat.sub_diag by lia; reflexivity|].
        intros i a Hi Ha. rewrite nth_error_app1 in Ha by lia.
        apply Qle_trans with (snd b); [exact Eq|].
        destruct (Nat.lt_trichotomy i m) as [H|[H|H]].
        -- eapply Hlow; eauto.
        -- subst i. rewrite Hm in Ha. injection Ha as <-. apply Qle_refl.
        -- apply Qlt_le_weak. eapply Hlast; eauto.
      * intros i a Hi Ha. assert (i < length (h ++ [x]))%nat by (apply nth_error_Some; congruence).
        rewrite app_length in H. change (length [x]) with 1%nat in H. lia.
    + exists m, b. split; [rewrite nth_error_app1 by lia; exact Hm|]. split; [reflexivity|]. split.
      * exists b. split; [rewrite nth_error_app1 by lia; exact Hm|].
        intros i a Hi Ha. rewrite nth_error_app1 in Ha by lia. eapply Hlow; eauto.
      * intros i a Hi Ha. destruct (Nat.lt_ge_cases i (length h)).
        -- rewrite nth_error_app1 in Ha by lia. eapply Hlast; eauto.
        -- rewrite nth_error_app2 in Ha by lia. destruct (i - length h)%nat as [|z] eqn:Ez; [|destruct z; discriminate].
           injection Ha as <-. destruct (Qlt_le_dec (snd b) (snd x)) as [H1|H1]; [exact H1|].
           apply Qle_bool_iff in H1. congruence.
Qed.

Lemma answer_at c h n b : nth_error h n = Some b ->
  nth_error (early_calls c early_init (fin_hist h)) n
  = Some (fst (early_call c (early_after c early_init (fin_hist (firstn n h))) (fst b) (Fin (snd b)))).
Proof.
  intros Hn. assert (Hl : (n < length h)%nat) by (apply nth_error_Some; congruence).
  destruct (nth_error_split h n Hn) as (l1 & l2 & -> & Hl1).
  unfold fin_hist. rewrite map_app, calls_app. cbn [map early_calls].
  rewrite nth_error_app2 by (rewrite calls_length, map_length; lia).
  rewrite calls_length, map_length, <- Hl1, Nat.sub_diag.
  rewrite firstn_app, Nat.sub_diag, firstn_all, firstn_O, app_nil_r.
  destruct (early_call _ _ _ _) as [bb ss]. reflexivity.
Qed.

Lemma firstn_S_snoc {A} (h : list A) n b : nth_error h n = Some b -> firstn (S n) h = firstn n h ++ [b].
Proof.
  revert n. induction h as [|x h IH]; intros [|n] E; try discriminate.
  - injection E as <-. reflexivity.
  - cbn [firstn app]. f_equal. apply IH. exact E.
Qed.
Lemma nth_firstn {A} (h : list A) n i : (i < n)%nat -> nth_error (firstn n h) i = nth_error h i.
Proof.
  revert n i. induction h as [|x h IH]; intros [|n] [|i] Hi; try lia; try reflexivity.
  cbn. apply IH. lia.
Qed.

Lemma exact_main c q h n b : ordered h -> 0 < patience c -> (0 <= min_delta c)%Q ->
  baseline c = option_map Fin q -> nth_error h n = Some b ->
  (nth_error (early_calls c early_init (fin_hist h)) n = Some true <->
   ~ hits q h n /\ exists m, lowest h m /\ within (patience c) h m n).
Proof.
  intros Hord Hp Hd Hbl Hn. rewrite (answer_at _ _ _ _ Hn).
  assert (Hl : (n < length h)%nat) by (apply nth_error_Some; congruence).
  set (g := firstn (S n) h).
  assert (Hg : g = firstn n h ++ [b]) by (apply firstn_S_snoc; exact Hn).
  destruct (after_spec c g) as (m & mb & Hm & Es & Hlow & Hlast).
  { rewrite Hg. destruct (firstn n h); discriminate. }
  assert (Hgl : length g = S n) by (unfold g; rewrite firstn_length; lia).
  assert (Hml : (m <= n)%nat). { assert (m < length g)%nat by (apply nth_error_Some; congruence). lia. }
  assert (Hmh : nth_error h m = Some mb) by (rewrite <- Hm; unfold g; rewrite nth_firstn by lia; reflexivity).
  rewrite Hg in Es. unfold fin_hist in Es. rewrite map_app, after_app in Es. cbn [map early_after] in Es.
  fold (fin_hist (firstn n h)) in Es. set (s0 := early_after c early_init (fin_hist (firstn n h))) in *.
  rewrite call_state in Es. unfold early_call. rewrite Es. cbn [best_val best_iter fsub].
  assert (Hhit : (match baseline c with Some b0 => fle (Fin (snd b)) b0 | None => false end) = true <-> hits q h n).
  { rewrite Hbl. destruct q as [q|]; cbn [option_map fle].
    - rewrite Qle_bool_iff. split; [intros H; exists b, q; auto|].
      intros (b' & q' & E1 & E2 & H). injection E1 as <-. rewrite Hn in E2. injection E2 as <-. exact H.
    - split; [discriminate|]. intros (b' & q' & E1 & _). discriminate. }
  assert (Hlowh : lowest h m).
  { destruct Hlow as (b' & Hb' & H). rewrite Hm in Hb'. injection Hb' as <-. exists mb. split; [exact Hmh|].
    intros i a Hi Ha. apply (H i a Hi). unfold g. rewrite nth_firstn by lia. exact Ha. }
  assert (Hwin : (exists m', lowest h m' /\ within (patience c) h m' n) <-> fst b - fst mb < patience c).
  { split.
    - intros (m' & (b' & Hb' & Hl') & (a1 & b1 & E1 & E2 & Hle & Hlt)).
      rewrite E1 in Hb'. injection Hb' as <-. rewrite Hn in E2. injection E2 as <-.
      destruct (Nat.lt_trichotomy m' m) as [H|[H|H]].
      + assert (fst a1 <= fst mb) by (eapply Hord; [exact H|exact E1|exact Hmh]). lia.
      + subst m'. rewrite Hmh in E1. injection E1 as <-. exact Hlt.
      + exfalso. assert (snd mb < snd a1)%Q. { apply (Hlast m'); [exact H|]. unfold g. rewrite nth_firstn by lia. exact E1. }
        assert (snd a1 <= snd mb)%Q by (eapply Hl'; [exact H|exact Hmh]).
        exact (Qlt_not_le _ _ H0 H1).
    - intros H. exists m. split; [exact Hlowh|]. exists mb, b. auto. }
  assert (Hgt : patience c <= fst b - fst mb -> fgt (Fin (snd b)) (Fin (snd mb - min_delta c)) = true).
  { intros H. assert (m <> n). { intros ->. rewrite Hn in Hmh. injection Hmh as <-. lia. }
    assert (snd mb < snd b)%Q.
    { apply (Hlast n); [lia|]. unfold g. rewrite nth_firstn by lia. exact Hn. }
    unfold fgt. cbn [fle]. apply negb_true_iff. destruct (Qle_bool (snd b) (snd mb - min_delta c)) eqn:E; [|reflexivity].
    apply Qle_bool_iff in E. exfalso. apply (Qlt_not_le _ _ H1). apply Qle_trans with (snd mb - min_delta c)%Q; [exact E|].
    rewrite <- (Qplus_0_r (snd mb)) at 2. unfold Qminus. apply Qplus_le_compat; [apply Qle_refl|].
    apply (Qopp_le_compat 0 (min_delta c)) in Hd. exact Hd. }
  rewrite Hwin, <- Hhit.
  destruct (match baseline c with Some b0 => fle (Fin (snd b)) b0 | None => false end) eqn:Eb; cbn [fst].
  - split; [discriminate|]. intros [H _]. congruence.
  - destruct (Z.leb_spec (patience c) (fst b - fst mb)) as [H|H].
    + rewrite (Hgt H). cbn [andb fst]. split; [discriminate|]. intros [_ H2]. lia.
    + cbn [andb fst]. split; [intros _; split; [discriminate|lia]|reflexivity].
Qed.

Lemma continues_main c q h n : ordered h -> (0 <= min_delta c)%Q ->
  baseline c = option_map Fin q -> ~ hits q h n ->
  (exists m, improves (min_delta c) h m /\ within (patience c) h m n) ->
  nth_error (early_calls c early_init (fin_hist h)) n = Some true.
Proof.
  intros Hord Hd Hbl Hh (m & (b & Hb & Him) & Hw).
  assert (Hw' := Hw). destruct Hw as (a & b' & Ea & Eb & Hle & Hlt).
  rewrite Hb in Ea. injection Ea as <-.
  assert (fst b <= fst b').
  { destruct (Nat.eq_dec m n); [subst; rewrite Hb in Eb; injection Eb as <-; lia|].
    apply (Hord m n); [lia|exact Hb|exact Eb]. }
  apply (exact_main c q h n b' Hord ltac:(lia) Hd Hbl Eb). split; [exact Hh|].
  exists m. split; [|exact Hw']. exists b. split; [exact Hb|]. intros i x Hi Hx. apply Qlt_le_weak.
  apply Qlt_le_trans with (snd x - min_delta c)%Q; [eapply Him; eauto|].
  rewrite <- (Qplus_0_r (snd x)) at 2. unfold Qminus. apply Qplus_le_compat; [apply Qle_refl|].
  apply (Qopp_le_compat 0 (min_delta c)) in Hd. exact Hd.
Qed.

(** A constant loss. *)
Definition plateau (k : nat) : history := map (fun i => (Z.of_nat i, 0%Q)) (seq 0 k).
Lemma plateau_nth k i : (i < k)%nat -> nth_error (plateau k) i = Some (Z.of_nat i, 0%Q).
Proof.
  intros Hi. unfold plateau. rewrite nth_error_map.
  rewrite (nth_error_nth' (seq 0 k) O) by (rewrite seq_length; lia). rewrite seq_nth by lia. reflexivity.
Qed.
Lemma plateau_length k : length (plateau k) = k.
Proof. unfold plateau. rewrite map_length, seq_length. reflexivity. Qed.
Lemma plateau_main d p : (0 <= d)%Q -> 0 < p -> forall n : nat, p <= Z.of_nat n ->
  exists h, ordered h /\ (n < length h)%nat /\
    (forall m, improves d h m -> ~ within p h m n) /\
    nth_error (early_calls (Early d p None) early_init (fin_hist h)) n = Some true.
Proof.
  intros Hd Hp n Hn. exists (plateau (S n)).
  assert (Hlen : forall i a, nth_error (plateau (S n)) i = Some a -> (i < S n)%nat /\ a = (Z.of_nat i, 0%Q)).
  { intros i a E. assert (i < length (plateau (S n)))%nat by (apply nth_error_Some; congruence).
    rewrite plateau_length in H. split; [exact H|]. rewrite plateau_nth in E by exact H. congruence. }
  assert (Hord : ordered (plateau (S n))).
  { intros i j a b Hij Ea Eb. apply Hlen in Ea. apply Hlen in Eb. destruct Ea as [_ ->], Eb as [_ ->]. cbn. lia. }
  split; [exact Hord|]. split; [rewrite plateau_length; lia|]. split.
  - intros m (b & Hb & Him) (x & y & Ex & Ey & Hle & Hlt).
    apply Hlen in Ex. apply Hlen in Ey. destruct Ex as [Hmn ->], Ey as [_ ->]. cbn [fst] in Hlt.
    destruct m as [|m]; [lia|]. apply Hlen in Hb. destruct Hb as [_ ->].
    specialize (Him O (0, 0%Q) ltac:(lia) (plateau_nth (S n) 0 ltac:(lia))). cbn [snd] in Him.
    apply (Qlt_not_le _ _ Him). unfold Qminus. rewrite Qplus_0_l. apply (Qopp_le_compat 0 d) in Hd. exact Hd.
  - apply (exact_main (Early d p None) None (plateau (S n)) n (Z.of_nat n, 0%Q) Hord Hp Hd eq_refl (plateau_nth (S n) n ltac:(lia))).
    split; [intros (b & q & E & _); discriminate|]. exists n. split.
    + exists (Z.of_nat n, 0%Q). split; [apply plateau_nth; lia|]. intros i a Hi Ea. apply Hlen in Ea. destruct Ea as [_ ->].
      apply Qle_refl.
    + exists (Z.of_nat n, 0%Q), (Z.of_nat n, 0%Q). split; [apply plateau_nth; lia|]. split; [apply plateau_nth; lia|].
      split; [lia|]. cbn [fst patience]. lia.
Qed.

Lemma nan_main c steps : early_calls c early_init (map (fun s => (s, NaN)) steps) = map (fun _ => true) steps.
Proof.
  assert (H : forall s, early_calls c s (map (fun x => (x, NaN)) steps) = map (fun _ => true) steps).
  { induction steps as [|x steps IH]; intros s; [reflexivity|]. cbn [map early_calls].
    unfold early_call. cbn [fle fgt]. rewrite andb_false_r.
    destruct (match baseline c with Some b => false | None => false end) eqn:E; [destruct (baseline c); discriminate|].
    rewrite IH. reflexivity. }
  apply H.
Qed.

(** ** Timeout *)
Lemma timeout_main timeout l x : 
  timeout_calls timeout None (x :: l) = true :: map (fun t => negb (timeout <=? snd t - fst x)) l.
Proof.
  destruct x as [t1 t2]. cbn [timeout_calls timeout_call fst]. f_equal.
  induction l as [|[u v] l IH]; [reflexivity|]. cbn [timeout_calls timeout_call map snd]. f_equal. exact IH.
Qed.
Lemma timeout_new_main timeout :
  (timeout_new timeout = Ok None <-> 0 < timeout) /\ (timeout_new timeout = Err AssertionError <-> timeout <= 0).
Proof.
  unfold timeout_new. destruct (Z.ltb_spec 0 timeout); split; split; intros; try reflexivity; try discriminate; lia.
Qed.
