(** * Lemmas about [Base] *)
From Coq Require Import ZArith List Bool Lia Sorted Permutation.
From Verif Require Import Base.
Import ListNotations.
Open Scope Z_scope.

Lemma upd_length {A} (l : list A) i v : length (upd l i v) = length l.
Proof. revert i; induction l; destruct i; simpl; auto. Qed.

Lemma nth_upd_same {A} (l : list A) i v d :
  (i < length l)%nat -> nth i (upd l i v) d = v.
Proof. revert i; induction l; destruct i; simpl; intros; try lia; auto. apply IHl; lia. Qed.

Lemma nth_upd_other {A} (l : list A) i j v d :
  i <> j -> nth j (upd l i v) d = nth j l d.
Proof. revert i j; induction l; destruct i, j; simpl; intros; try lia; auto. Qed.

Lemma upd_nth_id {A} (l : list A) i d : upd l i (nth i l d) = l.
Proof. revert i; induction l; destruct i; simpl; auto; f_equal; auto. Qed.

Lemma upd_app_l {A} (l1 l2 : list A) i v :
  (i < length l1)%nat -> upd (l1 ++ l2) i v = upd l1 i v ++ l2.
Proof. revert i; induction l1; destruct i; simpl; intros; try lia; auto. f_equal; apply IHl1; lia. Qed.

Lemma upd_app_r {A} (l1 l2 : list A) i v :
  upd (l1 ++ l2) (length l1 + i) v = l1 ++ upd l2 i v.
Proof. induction l1; simpl; auto. f_equal; auto. Qed.

Lemma Forall_upd {A} (P : A -> Prop) l i v : Forall P l -> P v -> Forall P (upd l i v).
Proof. intros H Hv; revert i; induction H; destruct i; simpl; auto. Qed.

Lemma zsum_app a b : zsum (a ++ b) = zsum a + zsum b.
Proof. induction a; simpl; auto. unfold zsum in *; simpl; lia. Qed.

Lemma zsum_upd l i v : (i < length l)%nat -> zsum (upd l i v) = zsum l - nth i l 0 + v.
Proof.
  unfold zsum. revert i; induction l; destruct i; simpl; intros; try lia.
  rewrite IHl by lia. lia.
Qed.

Lemma zsum_perm a b : Permutation a b -> zsum a = zsum b.
Proof. unfold zsum. induction 1; simpl; lia. Qed.

Lemma zsum_repeat x n : zsum (repeat x n) = x * Z.of_nat n.
Proof. unfold zsum. induction n; simpl repeat; simpl fold_right; lia. Qed.

Lemma in_zrange n i : In i (zrange n) <-> 0 <= i < n.
Proof.
  unfold zrange. rewrite in_map_iff. split.
  - intros [k [<- H]]. apply in_seq in H. lia.
  - intros H. exists (Z.to_nat i). rewrite Z2Nat.id by lia. split; auto.
    apply in_seq. lia.
Qed.

Lemma zrange_length n : length (zrange n) = Z.to_nat n.
Proof. unfold zrange. rewrite map_length, seq_length. auto. Qed.

Lemma zrange_nth n i d : (i < Z.to_nat n)%nat -> nth i (zrange n) d = Z.of_nat i.
Proof.
  intros. unfold zrange. rewrite nth_indep with (d' := Z.of_nat 0) by (rewrite map_length, seq_length; auto).
  rewrite map_nth. rewrite seq_nth by auto. f_equal.
Qed.

Lemma seq_sorted a n : StronglySorted lt (seq a n).
Proof.
  revert a; induction n; intros; simpl; constructor; auto.
  apply Forall_forall. intros x Hx. apply in_seq in Hx. lia.
Qed.

Lemma zrange_sorted n : StronglySorted Z.lt (zrange n).
Proof.
  unfold zrange. generalize (seq_sorted 0 (Z.to_nat n)).
  induction 1; simpl; constructor; auto.
  rewrite Forall_map. eapply Forall_impl; [|exact H0]. intros; lia.
Qed.

Lemma StronglySorted_filter {A} (R : A -> A -> Prop) f l :
  StronglySorted R l -> StronglySorted R (filter f l).
Proof.
  induction 1; simpl; [constructor|]. destruct (f a); auto. constructor; auto.
  apply Forall_forall. intros x Hx. apply filter_In in Hx. destruct Hx as [Hx _].
  rewrite Forall_forall in H0. auto.
Qed.

Lemma StronglySorted_nth {A} (R : A -> A -> Prop) l d i j :
  StronglySorted R l -> (i < j < length l)%nat -> R (nth i l d) (nth j l d).
Proof.
  intros H; revert i j; induction H; simpl; intros i j Hij; [lia|].
  destruct j; [lia|]. destruct i.
  - rewrite Forall_forall in H0. apply H0, nth_In; lia.
  - apply IHStronglySorted; lia.
Qed.

Lemma StronglySorted_lt_NoDup l : StronglySorted Z.lt l -> NoDup l.
Proof.
  induction 1; constructor; auto. intros Hin. rewrite Forall_forall in H0.
  apply H0 in Hin. lia.
Qed.

(** sorting *)
Lemma zinsert_perm x l : Permutation (x :: l) (zinsert x l).
Proof.
  induction l; simpl; auto. destruct (x <=? a); auto.
  eapply perm_trans; [apply perm_swap|]. constructor; auto.
Qed.

Lemma np_sort_perm l : Permutation l (np_sort l).
Proof.
  induction l; simpl; auto. eapply perm_trans; [|apply zinsert_perm]. constructor; auto.
Qed.

Lemma zinsert_sorted x l : StronglySorted Z.le l -> StronglySorted Z.le (zinsert x l).
Proof.
  induction 1; simpl; [repeat constructor|].
  destruct (Z.leb_spec x a).
  - constructor; [constructor; auto|]. constructor; auto.
    eapply Forall_impl; [|exact H0]. intros; lia.
  - constructor; auto. rewrite Forall_forall. intros y Hy.
    apply (Permutation_in _ (Permutation_sym (zinsert_perm x l))) in Hy.
    destruct Hy as [<-|Hy]; [lia|]. rewrite Forall_forall in H0; auto.
Qed.

Lemma np_sort_sorted l : StronglySorted Z.le (np_sort l).
Proof. induction l; simpl; [constructor|]. apply zinsert_sorted; auto. Qed.

Lemma np_sort_length l : length (np_sort l) = length l.
Proof. symmetry. apply Permutation_length, np_sort_perm. Qed.

Lemma np_sort_in l x : In x (np_sort l) <-> In x l.
Proof.
  split; apply Permutation_in; [apply Permutation_sym|]; apply np_sort_perm.
Qed.

Lemma sorted_le_NoDup_lt l : StronglySorted Z.le l -> NoDup l -> StronglySorted Z.lt l.
Proof.
  induction 1; intros Hn; [constructor|]. inversion Hn; subst. constructor; auto.
  rewrite Forall_forall in *. intros y Hy. specialize (H0 y Hy).
  assert (a <> y) by (intros ->; auto). lia.
Qed.

Lemma np_sort_strict l : NoDup l -> StronglySorted Z.lt (np_sort l).
Proof.
  intros. apply sorted_le_NoDup_lt; [apply np_sort_sorted|].
  eapply Permutation_NoDup; [apply np_sort_perm|auto].
Qed.

(** searchsorted *)
Lemma searchsorted_le l x : (searchsorted l x <= length l)%nat.
Proof. induction l; simpl; auto. destruct (x <=? a); lia. Qed.

Lemma searchsorted_nth l i d :
  StronglySorted Z.lt l -> (i < length l)%nat -> searchsorted l (nth i l d) = i.
Proof.
  intros H; revert i; induction H; simpl; intros i Hi; [lia|].
  destruct i.
  - rewrite Z.leb_refl. auto.
  - assert (a < nth i l d) by (rewrite Forall_forall in H0; apply H0, nth_In; lia).
    destruct (Z.leb_spec (nth i l d) a); [lia|]. f_equal. apply IHStronglySorted; lia.
Qed.

Lemma searchsorted_in l x :
  StronglySorted Z.lt l -> In x l ->
  (searchsorted l x < length l)%nat /\ forall d, nth (searchsorted l x) l d = x.
Proof.
  intros Hs Hin. apply (In_nth _ _ 0) in Hin. destruct Hin as [i [Hi <-]].
  rewrite searchsorted_nth by auto. split; auto. intros. apply nth_indep; auto.
Qed.

Lemma searchsorted_spec_lt l x :
  StronglySorted Z.lt l ->
  forall i d, (i < length l)%nat -> ((i < searchsorted l x)%nat <-> nth i l d < x).
Proof.
  induction 1; simpl; intros i d Hi; [lia|].
  destruct (Z.leb_spec x a).
  - split; [lia|]. destruct i; [lia|].
    assert (a < nth i l d) by (rewrite Forall_forall in H0; apply H0, nth_In; lia). lia.
  - destruct i; [split; lia|]. rewrite <- IHStronglySorted by lia. lia.
Qed.

Lemma sequence_ok {A B} (f : A -> res B) (g : A -> B) l :
  (forall x, In x l -> f x = Ok (g x)) -> sequence (map f l) = Ok (map g l).
Proof.
  induction l; simpl; intros H; auto. rewrite (H a) by auto. simpl.
  rewrite IHl by auto. auto.
Qed.

Lemma wrap64_id z : - 2 ^ 63 <= z < 2 ^ 63 -> wrap64 z = z.
Proof. intros. unfold wrap64. rewrite Z.mod_small; lia. Qed.

Lemma zlist_eqb_eq a b : zlist_eqb a b = true <-> a = b.
Proof.
  revert b; induction a; destruct b; simpl; split; intros H; try discriminate; auto.
  - apply andb_true_iff in H. destruct H as [H1 H2]. apply Z.eqb_eq in H1.
    apply IHa in H2. subst; auto.
  - inversion H; subst. rewrite Z.eqb_refl. simpl. apply IHa; auto.
Qed.

Lemma zprod_app a b : zprod (a ++ b) = zprod a * zprod b.
Proof. unfold zprod. induction a; simpl; [destruct (fold_right _ _ b); auto|]. rewrite IHa. ring. Qed.

Lemma app_eq_length {A} (a b c d : list A) :
  length a = length c -> a ++ b = c ++ d -> a = c /\ b = d.
Proof.
  revert c; induction a; destruct c; simpl; intros; try discriminate; auto.
  inversion H0; subst. destruct (IHa c) as [-> ->]; auto.
Qed.

Lemma skipn_skipn' {A} (n m : nat) (l : list A) : skipn n (skipn m l) = skipn (m + n) l.
Proof. revert l; induction m; intros l; simpl; auto. destruct l; auto. apply skipn_nil. Qed.
