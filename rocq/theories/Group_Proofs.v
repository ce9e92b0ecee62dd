(** Facts about permutations and the proofs behind C27. *)
From Coq Require Import List Arith Bool Permutation Sorted Lia.
From Verif Require Import Base BaseFacts Group_Model Group_Spec.
Import ListNotations.
Open Scope nat_scope.

Lemma sequence_ok_in {A} (l : list (res A)) ys :
  sequence l = Ok ys -> l = map Ok ys.
Proof.
  revert ys; induction l as [|x l IH]; cbn; intros ys H.
  - now injection H as <-.
  - destruct x as [x|e]; [|discriminate]; cbn in H.
    destruct (sequence l) as [zs|e]; [|discriminate]; cbn in H.
    injection H as <-; cbn. now rewrite (IH zs eq_refl).
Qed.

Lemma sequence_map_ok {A B} (f : A -> res B) g l :
  (forall x, In x l -> f x = Ok (g x)) -> sequence (map f l) = Ok (map g l).
Proof.
  induction l as [|x l IH]; cbn; intros H; [reflexivity|].
  rewrite (H x) by now left. cbn. rewrite IH by (intros; apply H; now right). reflexivity.
Qed.

Lemma sequence_err {A} (l : list (res A)) e :
  sequence l = Err e -> In (Err e) l.
Proof.
  induction l as [|x l IH]; cbn; [discriminate|].
  destruct x as [x|e']; cbn.
  - destruct (sequence l); [discriminate|]. cbn. intros [= ->]. right; auto.
  - intros [= ->]. now left.
Qed.

Lemma take_ok {A} (d : A) x p :
  Forall (fun i => i < length x) p -> take x p = Ok (permuted d p x).
Proof.
  intros H; unfold take, permuted. apply sequence_map_ok.
  intros i Hi. rewrite Forall_forall in H. now rewrite (nth_error_nth' x d (H i Hi)).
Qed.

Lemma take_inv {A} (d : A) x p y :
  take x p = Ok y -> y = permuted d p x /\ Forall (fun i => i < length x) p.
Proof.
  unfold take, permuted; intros H.
  revert y H; induction p as [|i p IH]; cbn; intros y H.
  - injection H as <-. split; [reflexivity|constructor].
  - destruct (nth_error x i) as [v|] eqn:Hi; [|discriminate]. cbn in H.
    match goal with H : context [sequence ?s] |- _ =>
      destruct (sequence s) as [zs|]; [|discriminate] end.
    cbn in H; injection H as <-. destruct (IH _ eq_refl) as [-> F].
    split.
    + now rewrite (nth_error_nth x i d Hi).
    + constructor; [|exact F]. apply nth_error_Some. congruence.
Qed.

(** ** permutations *)
Lemma isperm_iff n p :
  isperm n p <-> length p = n /\ NoDup p /\ Forall (fun i => i < n) p.
Proof.
  unfold isperm; split.
  - intros H; split; [|split].
    + now rewrite (Permutation_length H), seq_length.
    + apply (Permutation_NoDup (Permutation_sym H)), seq_NoDup.
    + rewrite Forall_forall; intros i Hi. apply (Permutation_in _ H) in Hi.
      apply in_seq in Hi; lia.
  - intros [L [N F]]. apply NoDup_Permutation_bis; auto.
    + rewrite seq_length; lia.
    + intros i Hi. rewrite Forall_forall in F. apply in_seq. specialize (F i Hi); lia.
Qed.

Lemma isperm_len n p : isperm n p -> length p = n.
Proof. intros H; apply isperm_iff in H; tauto. Qed.
Lemma isperm_lt n p i : isperm n p -> In i p -> i < n.
Proof. intros H; apply isperm_iff in H. destruct H as [_ [_ F]]. rewrite Forall_forall in F; auto. Qed.
Lemma isperm_in n p i : isperm n p -> i < n -> In i p.
Proof. intros H Hi. apply (Permutation_in _ (Permutation_sym H)), in_seq; lia. Qed.
Lemma isperm_nodup n p : isperm n p -> NoDup p.
Proof. intros H; apply isperm_iff in H; tauto. Qed.
Lemma isperm_seq n : isperm n (seq 0 n).
Proof. apply Permutation_refl. Qed.

Lemma nth_permuted {A} (d d' : A) p x k :
  k < length p -> nth k (permuted d p x) d' = nth (nth k p 0) x d.
Proof.
  intros H. unfold permuted.
  rewrite (nth_indep _ d' (nth 0 x d)) by now rewrite map_length.
  apply (map_nth (fun j => nth j x d)).
Qed.

Lemma permuted_len {A} (d : A) p x : length (permuted d p x) = length p.
Proof. apply map_length. Qed.

Lemma permuted_id {A} (d : A) x n : length x = n -> permuted d (seq 0 n) x = x.
Proof.
  intros <-. unfold permuted. apply nth_ext with d d.
  - now rewrite map_length, seq_length.
  - rewrite map_length, seq_length; intros i Hi.
    change (nth i (permuted d (seq 0 (length x)) x) d = nth i x d).
    rewrite nth_permuted by now rewrite seq_length. now rewrite seq_nth.
Qed.

Lemma permuted_times {A} (d : A) p q x :
  Forall (fun i => i < length q) p ->
  permuted d (times p q) x = permuted d p (permuted d q x).
Proof.
  intros F. unfold times. unfold permuted at 1 3. unfold permuted at 1. rewrite map_map.
  apply map_ext_in. intros k Hk. rewrite Forall_forall in F.
  now rewrite nth_permuted by auto.
Qed.

Lemma times_len p q : length (times p q) = length p.
Proof. apply map_length. Qed.

Lemma times_perm n p q : isperm n p -> isperm n q -> isperm n (times p q).
Proof.
  intros Hp Hq. unfold isperm, times, permuted in *.
  transitivity (map (fun k => nth k q 0) (seq 0 n)); [now apply Permutation_map|].
  change (Permutation (permuted 0 (seq 0 n) q) (seq 0 n)).
  now rewrite permuted_id by now apply isperm_len.
Qed.

Lemma isperm_forall n p q : isperm n p -> isperm n q -> Forall (fun i => i < length q) p.
Proof. intros Hp Hq. rewrite (isperm_len _ _ Hq). apply isperm_iff in Hp; tauto. Qed.

Lemma times_assoc n p q r :
  isperm n p -> isperm n q -> isperm n r -> times (times p q) r = times p (times q r).
Proof. intros. apply (permuted_times 0). eapply isperm_forall; eauto. Qed.
Lemma times_id_l n p : isperm n p -> times (seq 0 n) p = p.
Proof. intros H. apply permuted_id, isperm_len, H. Qed.
Lemma times_id_r n p : isperm n p -> times p (seq 0 n) = p.
Proof.
  intros H. unfold times, permuted. rewrite <- (map_id p) at 2. apply map_ext_in.
  intros k Hk. rewrite seq_nth; [lia|]. eapply isperm_lt; eauto.
Qed.

(** ** sorting and argsort *)
Lemma ninsert_perm x l : Permutation (x :: l) (ninsert x l).
Proof.
  induction l as [|y l IH]; cbn; [reflexivity|].
  destruct (x <=? y); [reflexivity|]. rewrite perm_swap. now constructor.
Qed.
Lemma nsort_perm l : Permutation l (nsort l).
Proof.
  induction l as [|x l IH]; cbn; [reflexivity|].
  rewrite <- ninsert_perm. now constructor.
Qed.
Lemma ninsert_sorted x l : StronglySorted le l -> StronglySorted le (ninsert x l).
Proof.
  induction l as [|y l IH]; cbn; intros H; [repeat constructor|].
  destruct (x <=? y) eqn:E.
  - constructor; auto. inversion H; subst. apply Nat.leb_le in E. constructor; auto.
    eapply Forall_impl; [|eassumption]. intros; cbn in *; lia.
  - inversion H; subst. constructor; auto. apply Nat.leb_gt in E.
    rewrite Forall_forall in *. intros z Hz.
    apply (Permutation_in _ (Permutation_sym (ninsert_perm x l))) in Hz.
    destruct Hz as [<-|Hz]; [lia|auto].
Qed.
Lemma nsort_sorted l : StronglySorted le (nsort l).
Proof. induction l; cbn; [constructor|]. now apply ninsert_sorted. Qed.

Lemma sorted_unique l l' :
  StronglySorted le l -> StronglySorted le l' -> Permutation l l' -> l = l'.
Proof.
  revert l'; induction l as [|x l IH]; intros l' S S' P.
  - now apply Permutation_nil in P.
  - destruct l' as [|y l']; [now apply Permutation_sym, Permutation_nil in P|].
    inversion S as [|? ? S1 F1]; inversion S' as [|? ? S2 F2]; subst.
    assert (x = y).
    { rewrite Forall_forall in *.
      assert (In x (y :: l')) by (apply (Permutation_in _ P); now left).
      assert (In y (x :: l)) by (apply (Permutation_in _ (Permutation_sym P)); now left).
      destruct H as [->|H]; [reflexivity|]. destruct H0 as [->|H0]; [reflexivity|].
      specialize (F1 _ H0). specialize (F2 _ H). lia. }
    subst y. f_equal. apply IH; auto. now apply Permutation_cons_inv in P.
Qed.

Lemma lt_le_sorted l : StronglySorted lt l -> StronglySorted le l.
Proof.
  induction 1; constructor; auto. eapply Forall_impl; [|eassumption]. cbn; lia.
Qed.

Lemma nsort_isperm n p : isperm n p -> nsort p = seq 0 n.
Proof.
  intros H. apply sorted_unique.
  - apply nsort_sorted.
  - apply lt_le_sorted, seq_sorted.
  - rewrite <- nsort_perm. exact H.
Qed.

Lemma find_pos_nth v p : In v p -> nth (find_pos v p) p 0 = v /\ find_pos v p < length p.
Proof.
  induction p as [|y p IH]; cbn; [easy|].
  intros H. destruct (v =? y) eqn:E.
  - apply Nat.eqb_eq in E; subst. split; [reflexivity|lia].
  - destruct H as [->|H]; [rewrite Nat.eqb_refl in E; discriminate|].
    destruct (IH H). split; [auto|lia].
Qed.

Lemma find_pos_of_nth p k : NoDup p -> k < length p -> find_pos (nth k p 0) p = k.
Proof.
  intros N Hk.
  destruct (find_pos_nth (nth k p 0) p (nth_In _ _ Hk)) as [E L].
  apply (proj1 (NoDup_nth p 0) N); auto.
Qed.

Lemma argsort_inverses n p : isperm n p -> inverses n p (argsort p).
Proof.
  intros H. unfold inverses, argsort. rewrite (nsort_isperm _ _ H). split.
  - unfold times. apply nth_ext with 0 0.
    + now rewrite permuted_len, seq_length, (isperm_len _ _ H).
    + rewrite permuted_len; intros k Hk.
      rewrite nth_permuted by exact Hk.
      assert (nth k p 0 < n) by (eapply isperm_lt; eauto; now apply nth_In).
      rewrite nth_indep with (d' := find_pos 0 p) by (rewrite map_length, seq_length; lia).
      rewrite (map_nth (fun v => find_pos v p)), seq_nth by lia.
      rewrite seq_nth by (rewrite <- (isperm_len _ _ H); exact Hk). cbn.
      apply find_pos_of_nth; [eapply isperm_nodup; eauto|exact Hk].
  - unfold times, permuted. rewrite map_map. rewrite <- (map_id (seq 0 n)) at 2.
    apply map_ext_in. intros v Hv. apply in_seq in Hv.
    apply find_pos_nth. eapply isperm_in; eauto; lia.
Qed.

Lemma argsort_perm n p : isperm n p -> isperm n (argsort p).
Proof.
  intros H. apply isperm_iff. unfold argsort. rewrite (nsort_isperm _ _ H).
  split; [now rewrite map_length, seq_length|].
  assert (In' : forall v, In v (seq 0 n) -> In v p).
  { intros v Hv. apply in_seq in Hv. eapply isperm_in; eauto; lia. }
  split.
  - clear - In' H. assert (G : forall l, (forall v, In v l -> In v p) -> NoDup l ->
      NoDup (map (fun v => find_pos v p) l)).
    { intros l Hl N; induction N as [|x l Hx N IH]; cbn; constructor.
      - rewrite in_map_iff; intros [y [E Hy]]. apply Hx.
        destruct (find_pos_nth x p) as [E1 _]; [apply Hl; now left|].
        destruct (find_pos_nth y p) as [E2 _]; [apply Hl; now right|].
        congruence.
      - apply IH. intros; apply Hl; now right. }
    apply G; auto. apply seq_NoDup.
  - rewrite Forall_forall. intros i Hi. rewrite in_map_iff in Hi.
    destruct Hi as [v [<- Hv]]. rewrite <- (isperm_len _ _ H). apply find_pos_nth; auto.
Qed.

Lemma inverses_unique n p q q' :
  isperm n p -> isperm n q -> isperm n q' ->
  inverses n p q -> inverses n p q' -> q = q'.
Proof.
  intros P Q Q' [A B] [A' B'].
  rewrite <- (times_id_l n q' Q'), <- B, (times_assoc n) by assumption.
  now rewrite A', (times_id_r n).
Qed.

(** an inverse of a permutation need not be assumed to be one *)
Lemma inverses_perm n p q : isperm n p -> inverses n p q -> isperm n q.
Proof.
  intros P [A B].
  assert (L : length q = n) by (apply (f_equal (@length nat)) in B;
    now rewrite times_len, seq_length in B).
  enough (q = argsort p) by (subst; now apply argsort_perm).
  apply nth_ext with 0 0.
  - now rewrite L, (isperm_len _ _ (argsort_perm _ _ P)).
  - rewrite L; intros k Hk.
    assert (In k p) as Hin by (eapply isperm_in; eauto).
    destruct (find_pos_nth k p Hin) as [E F].
    pose proof (f_equal (fun l => nth (find_pos k p) l 0) A) as A1. cbn in A1.
    unfold times in A1. rewrite nth_permuted in A1 by exact F.
    rewrite E in A1. rewrite A1.
    destruct (argsort_inverses n p P) as [A2 _].
    pose proof (f_equal (fun l => nth (find_pos k p) l 0) A2) as A3. cbn in A3.
    unfold times in A3. rewrite nth_permuted in A3 by exact F. rewrite E in A3. congruence.
Qed.

(** ** elements and their products *)
Lemma perm_of_perm n e : wf n e -> isperm n (perm_of n e).
Proof.
  induction e; cbn; auto.
  - intros; apply isperm_seq.
  - intros [H1 H2]. apply times_perm; auto.
Qed.

Lemma apply_ok {A} (d : A) n e (x : list A) :
  wf n e -> length x = n -> apply e x = Ok (permuted d (perm_of n e) x).
Proof.
  revert x; induction e as [|p|p|l IHl r IHr]; cbn [apply wf perm_of]; intros x W L.
  - now rewrite permuted_id.
  - apply take_ok. rewrite L. apply isperm_iff in W; tauto.
  - apply take_ok. rewrite L. apply isperm_iff in W; tauto.
  - destruct W as [Wl Wr]. rewrite (IHr x Wr L). cbn [bind].
    rewrite (IHl _ Wl). 2:{ rewrite permuted_len. now apply isperm_len, perm_of_perm. }
    rewrite permuted_times; [reflexivity|].
    eapply isperm_forall; apply perm_of_perm; eauto.
Qed.

Lemma canonical_ok n e : wf n e -> canonical n e = Ok (perm_of n e).
Proof.
  intros W. unfold canonical. rewrite (apply_ok 0 n) by (auto; apply seq_length).
  f_equal. apply (times_id_r n). now apply perm_of_perm.
Qed.

Lemma to_array_ok g : Forall (wf (degree g)) (elems g) -> to_array g = Ok (perms g).
Proof.
  intros H. apply sequence_map_ok. intros e He. apply canonical_ok.
  rewrite Forall_forall in H; auto.
Qed.

Lemma prod_fuel_apply f : forall a b c,
  prod_fuel f a b = Ok c ->
  forall A (x y : list A), apply b x = Ok y -> apply c x = apply a y.
Proof.
  induction f as [|f IH]; cbn [prod_fuel]; intros a b c H A x y Hy; [discriminate|].
  destruct a as [|p|p|l r], b as [|q|q|l' r'];
    try discriminate H;
    try (injection H as <-; cbn [apply] in *; rewrite ?Hy; cbn [bind];
         first [reflexivity | congruence]).
  - destruct (take q p) as [t|] eqn:T; [|discriminate]. injection H as <-.
    cbn [apply] in *.
    destruct y as [|d y0] eqn:EY.
    + destruct (take_inv 0 _ _ _ T) as [-> F].
      unfold take in Hy. destruct q as [|i q].
      * cbn in F. destruct p; [reflexivity|]. inversion F; cbn in *; lia.
      * cbn in Hy. destruct (nth_error x i); [|discriminate]. cbn in Hy.
        destruct (sequence _); discriminate.
    + rewrite <- EY in *. clear EY y0.
      destruct (take_inv 0 _ _ _ T) as [-> F]. destruct (take_inv d _ _ _ Hy) as [-> G].
      rewrite (take_ok d). 2:{ rewrite Forall_forall in *. intros i Hi.
        unfold permuted in Hi; apply in_map_iff in Hi. destruct Hi as [k [<- Hk]].
        apply G, nth_In, F, Hk. }
      rewrite (take_ok d) by (rewrite permuted_len; exact F).
      f_equal. apply permuted_times. exact F.
  - destruct (prod_fuel f (EPerm p) l') as [ab|] eqn:E; [|discriminate]. cbn [bind] in H.
    cbn [apply] in Hy. destruct (apply r' x) as [z|] eqn:Z; [|discriminate].
    cbn [bind] in Hy. specialize (IH _ _ _ E A z y Hy).
    destruct (is_comp ab); injection H as <-; cbn [apply] in *; rewrite Z; cbn [bind];
      [rewrite Hy; reflexivity|exact IH].
  - destruct (prod_fuel f (EOther p) l') as [ab|] eqn:E; [|discriminate]. cbn [bind] in H.
    cbn [apply] in Hy. destruct (apply r' x) as [z|] eqn:Z; [|discriminate].
    cbn [bind] in Hy. specialize (IH _ _ _ E A z y Hy).
    destruct (is_comp ab); injection H as <-; cbn [apply] in *; rewrite Z; cbn [bind];
      [rewrite Hy; reflexivity|exact IH].
  - destruct (prod_fuel f r (EPerm q)) as [bc|] eqn:E; [|discriminate]. cbn [bind] in H.
    specialize (IH _ _ _ E A x y Hy).
    destruct (is_comp bc); injection H as <-; cbn [apply] in *.
    + rewrite Hy. reflexivity.
    + rewrite IH. reflexivity.
  - destruct (prod_fuel f r (EOther q)) as [bc|] eqn:E; [|discriminate]. cbn [bind] in H.
    specialize (IH _ _ _ E A x y Hy).
    destruct (is_comp bc); injection H as <-; cbn [apply] in *.
    + rewrite Hy. reflexivity.
    + rewrite IH. reflexivity.
  - destruct (prod_fuel f r l') as [bc|] eqn:E; [|discriminate]. cbn [bind] in H.
    cbn [apply] in Hy. destruct (apply r' x) as [z|] eqn:Z; [|discriminate].
    cbn [bind] in Hy. specialize (IH _ _ _ E A z y Hy).
    destruct (is_comp bc); injection H as <-; cbn [apply] in *; rewrite Z; cbn [bind].
    + rewrite Hy. reflexivity.
    + rewrite IH. reflexivity.
Qed.

Lemma prod_apply a b c : prod a b = Ok c ->
  forall A (x y : list A), apply b x = Ok y -> apply c x = apply a y.
Proof. apply prod_fuel_apply. Qed.

Lemma prod_simple n a b : wf n a -> wf n b -> is_comp a = false -> is_comp b = false ->
  exists c, prod a b = Ok c /\ wf n c.
Proof.
  intros Wa Wb Ca Cb.
  destruct a as [|p|p|l r], b as [|q|q|l' r']; try discriminate; cbn in Wa, Wb;
    try (eexists; split; [reflexivity|]; cbn; auto; fail).
  unfold prod; cbn. rewrite (take_ok 0) by (eapply isperm_forall; eauto). cbn.
  eexists; split; [reflexivity|]. cbn. now apply times_perm.
Qed.

Lemma perm_apply_inj n e p : wf n e -> apply e (seq 0 n) = Ok p -> p = perm_of n e.
Proof. intros W H. change (canonical n e = Ok p) in H. rewrite canonical_ok in H by auto. congruence. Qed.

Lemma prod_perm n a b c :
  wf n a -> wf n b -> wf n c -> prod a b = Ok c ->
  perm_of n c = times (perm_of n a) (perm_of n b).
Proof.
  intros Wa Wb Wc H.
  pose proof (prod_apply a b c H nat (seq 0 n) (perm_of n b)) as E.
  change (apply b (seq 0 n)) with (canonical n b) in E.
  change (apply c (seq 0 n)) with (canonical n c) in E.
  rewrite !canonical_ok in E by auto. specialize (E eq_refl).
  rewrite (apply_ok 0 n) in E by (auto; now apply isperm_len, perm_of_perm).
  now injection E.
Qed.

(** ** lookup *)
Lemma nlist_eqb_eq a b : nlist_eqb a b = true <-> a = b.
Proof.
  revert b; induction a as [|x a IH]; intros [|y b]; cbn; try easy.
  rewrite andb_true_iff, Nat.eqb_eq, IH. split; [intros [-> ->]; auto|now intros [= -> ->]].
Qed.
Lemma nlist_eqb_refl a : nlist_eqb a a = true. Proof. now apply nlist_eqb_eq. Qed.

Lemma lookup_from_spec rows key i :
  match lookup_from i rows key with
  | Some k => i <= k < i + length rows /\ nth (k - i) rows [] = key
  | None => ~ In key rows
  end.
Proof.
  revert i; induction rows as [|r rows IH]; intros i; cbn; [auto|].
  specialize (IH (S i)). destruct (lookup_from (S i) rows key) as [k|].
  - destruct IH as [H E]. split; [lia|].
    replace (k - i) with (S (k - S i)) by lia. exact E.
  - destruct (nlist_eqb r key) eqn:E.
    + apply nlist_eqb_eq in E. split; [lia|]. now rewrite Nat.sub_diag.
    + intros [->|H]; [now rewrite nlist_eqb_refl in E|auto].
Qed.

Lemma lookup_some rows key k : lookup rows key = Some k ->
  k < length rows /\ nth k rows [] = key.
Proof.
  unfold lookup; intros H. pose proof (lookup_from_spec rows key 0) as S. rewrite H in S.
  rewrite Nat.sub_0_r in S. split; [lia|tauto].
Qed.
Lemma lookup_none rows key : lookup rows key = None -> ~ In key rows.
Proof. unfold lookup; intros H. pose proof (lookup_from_spec rows key 0) as S. now rewrite H in S. Qed.
Lemma lookup_in rows key : In key rows -> exists k, lookup rows key = Some k.
Proof.
  intros H. destruct (lookup rows key) as [k|] eqn:E; eauto.
  now apply lookup_none in E.
Qed.

(** ** inverse and product table *)
Lemma perms_perm g p : Forall (wf (degree g)) (elems g) -> In p (perms g) -> isperm (degree g) p.
Proof.
  intros H Hp. unfold perms in Hp. apply in_map_iff in Hp. destruct Hp as [e [<- He]].
  rewrite Forall_forall in H. apply perm_of_perm; auto.
Qed.

Lemma nth_in_perms (rows : list (list nat)) i : i < length rows -> In (nth i rows []) rows.
Proof. intros; now apply nth_In. Qed.

Lemma map_Ok_nth {A} (f : list nat -> res A) rows ys d i :
  map f rows = map Ok ys -> i < length rows -> f (nth i rows []) = Ok (nth i ys d).
Proof.
  intros H Hi.
  assert (L : length ys = length rows) by
    (apply (f_equal (@length _)) in H; now rewrite !map_length in H).
  pose proof (f_equal (fun l => nth i l (Ok d)) H) as E. cbn in E.
  rewrite (map_nth Ok) in E. rewrite <- E.
  rewrite (nth_indep _ (Ok d) (f [])) by now rewrite map_length. now rewrite map_nth.
Qed.

Lemma inverse_of_ok n rows inv :
  Forall (isperm n) rows -> inverse_of rows = Ok inv ->
  length inv = length rows /\
  forall i, i < length rows -> nth i inv 0 < length rows /\
    inverses n (nth i rows []) (nth (nth i inv 0) rows []).
Proof.
  intros F H. apply sequence_ok_in in H.
  split; [apply (f_equal (@length _)) in H; now rewrite !map_length in H|].
  intros i Hi. pose proof (map_Ok_nth _ _ _ 0 i H Hi) as E. cbv beta in E.
  destruct (lookup rows (argsort (nth i rows []))) as [k|] eqn:L; [|discriminate].
  injection E as <-. apply lookup_some in L. destruct L as [L ->].
  split; [exact L|]. apply argsort_inverses. rewrite Forall_forall in F.
  now apply F, nth_In.
Qed.

Lemma inverse_of_err n rows e :
  Forall (isperm n) rows -> inverse_of rows = Err e ->
  e = RuntimeError /\ ~ has_inverses n rows.
Proof.
  intros F H. apply sequence_err in H. rewrite in_map_iff in H.
  destruct H as [p [E Hp]]. rewrite Forall_forall in F.
  destruct (lookup rows (argsort p)) as [k|] eqn:L; [discriminate|].
  injection E as <-. split; [reflexivity|]. intros HI.
  destruct (HI p Hp) as [q [Hq I]]. apply lookup_none in L. apply L.
  rewrite (inverses_unique n p (argsort p) q); auto.
  - now apply argsort_perm, F.
  - now apply argsort_inverses, F.
Qed.

Lemma product_table_of_ok n rows inv pt :
  Forall (isperm n) rows -> inverse_of rows = Ok inv -> product_table_of rows inv = Ok pt ->
  length pt = length rows /\
  forall i j, i < length rows -> j < length rows ->
    tget pt i j < length rows /\
    nth (tget pt i j) rows [] = times (nth (nth i inv 0) rows []) (nth j rows []).
Proof.
  intros F HI H. destruct (inverse_of_ok n rows inv F HI) as [LI I].
  apply sequence_ok_in in H.
  assert (LP : length pt = length rows).
  { apply (f_equal (@length _)) in H. rewrite !map_length in H. congruence. }
  split; [exact LP|].
  intros i j Hi Hj. rewrite Forall_forall in F.
  assert (E : sequence (map (fun pj =>
      let? r := take pj (nth (nth i inv 0) rows []) in
      match lookup rows r with Some k => Ok k | None => Err RuntimeError end) rows)
      = Ok (nth i pt [])).
  { pose proof (f_equal (fun l => nth i l (Ok [])) H) as E. cbn [map] in E. cbv beta in E.
    rewrite (map_nth Ok) in E. rewrite <- E.
    match goal with |- _ = nth i (map ?f inv) _ =>
      rewrite (nth_indep (map f inv) (Ok []) (f 0)) by (rewrite map_length; lia);
      now rewrite (map_nth f) end. }
  apply sequence_ok_in in E.
  pose proof (map_Ok_nth _ _ _ 0 j E Hj) as E'. cbv beta in E'.
  destruct (I i Hi) as [Hii _].
  rewrite (take_ok 0) in E'
    by (eapply isperm_forall with (n := n); apply F; apply nth_In; assumption).
  cbn [bind] in E'.
  destruct (lookup rows (permuted 0 _ _)) as [k|] eqn:L; [|discriminate].
  injection E' as E'. unfold tget. rewrite <- E'. now apply lookup_some in L.
Qed.

Lemma product_table_of_err n rows inv e :
  Forall (isperm n) rows -> inverse_of rows = Ok inv -> product_table_of rows inv = Err e ->
  e = RuntimeError /\ ~ closed n rows.
Proof.
  intros F HI H. destruct (inverse_of_ok n rows inv F HI) as [LI I].
  rewrite Forall_forall in F.
  apply sequence_err in H. rewrite in_map_iff in H. destruct H as [k [E Hk]].
  apply sequence_err in E. rewrite in_map_iff in E. destruct E as [q [E Hq]].
  destruct (In_nth inv k 0 Hk) as [i [Hi Ei]]. rewrite LI in Hi.
  destruct (I i Hi) as [Hii IV]. rewrite Ei in *.
  rewrite (take_ok 0) in E
    by (eapply isperm_forall with (n := n); [apply F, nth_In; assumption|apply F, Hq]).
  cbn [bind] in E.
  destruct (lookup rows _) as [?|] eqn:L; [discriminate|]. injection E as <-.
  split; [reflexivity|]. intros C. apply lookup_none in L. apply L.
  apply (C (nth i rows [])); auto. now apply nth_In.
Qed.
