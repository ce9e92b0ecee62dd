(** * Transposes, hermiticity, connected elements, sizes *)
From Coq Require Import ZArith List Bool Lia Permutation Sorting.Sorted Ring.
From Verif Require Import Base BaseFacts Hilbert_Model HilbertOps_Model Scalar
  LocalOp_Model LocalOp_Spec LocalOp_Facts LocalOp_Kernel LocalOp_Reorder LocalOp_Build.
Import ListNotations.

Section Laws.
Variable S : scalars.
Hypothesis L : scalar_laws S.
Notation K := (K S).
Notation "0" := (k0 S).
Notation "1" := (k1 S).
Infix "+" := (kadd S).
Infix "*" := (kmul S).
Add Ring Kring : (k_ring S L).

Variable depth : nat.
Notation dp := (Datatypes.S depth).
Variable hs : list (list Z).
Hypothesis Hs : sorted_space hs.

(** ** transposition *)
Lemma same_elsewhere_sym act x y : length x = length y ->
  same_elsewhere act x y = same_elsewhere act y x.
Proof.
  intros E. apply eq_true_iff_eq. rewrite !same_elsewhere_iff. rewrite E.
  split; intros G i Hi Hn; symmetry; apply G; auto.
Qed.

Lemma transpose_square m d : square S m d -> square S (transpose_mat S m) d.
Proof.
  intros Hm. unfold transpose_mat. destruct (Nat.eq_dec d 0) as [->|Hd].
  - destruct Hm as [H1 _]. destruct m; [|discriminate]. simpl. split; constructor.
  - rewrite (square_nrows S m d), (square_ncols S m d) by (auto; lia). apply mbuild_square.
Qed.

Lemma transpose_get m d i j : square S m d -> (i < d)%nat -> (j < d)%nat ->
  mget S (transpose_mat S m) i j = mget S m j i.
Proof.
  intros Hm Hi Hj. unfold transpose_mat.
  rewrite (square_nrows S m d), (square_ncols S m d) by (auto; lia).
  apply (mbuild_get S d d (fun i j => mget S m j i)); auto.
Qed.

Lemma transpose_term m act x y :
  sites_ok hs act -> square S m (local_dim hs act) -> configuration hs x -> configuration hs y ->
  term_element S hs (transpose_mat S m) act x y = term_element S hs m act y x.
Proof.
  intros Ha Hm Hx Hy. unfold term_element. change (entry S) with (mget S).
  rewrite (same_elsewhere_sym act x y)
    by (rewrite (configuration_length _ _ Hx), (configuration_length _ _ Hy); auto).
  destruct (same_elsewhere act y x); auto.
  apply transpose_get with (d := local_dim hs act); auto; apply loc_index_lt; auto; apply Ha.
Qed.

Lemma conj_get m i j : mget S (conj_mat S m) i j = kconj S (mget S m i j).
Proof.
  unfold mget, conj_mat.
  destruct (Nat.ltb_spec i (length m)).
  - rewrite nth_indep with (d' := map (kconj S) []) by (rewrite map_length; auto).
    rewrite map_nth. destruct (Nat.ltb_spec j (length (nth i m []))).
    + rewrite nth_indep with (d' := kconj S 0) by (rewrite map_length; auto).
      rewrite map_nth. auto.
    + rewrite !nth_overflow by (try rewrite map_length; auto). rewrite (k_conj_0 S L). auto.
  - rewrite (nth_overflow m), (nth_overflow (map _ m)) by (try rewrite map_length; auto).
    destruct j; simpl; rewrite (k_conj_0 S L); auto.
Qed.

Lemma conj_square m d : square S m d -> square S (conj_mat S m) d.
Proof.
  intros [H1 H2]. unfold conj_mat. split; [rewrite map_length; auto|].
  apply Forall_map. eapply Forall_impl; [|exact H2]. intros; rewrite map_length; auto.
Qed.

Lemma conj_term m act x y :
  term_element S hs (conj_mat S m) act x y = kconj S (term_element S hs m act x y).
Proof.
  unfold term_element. change (entry S) with (mget S). rewrite conj_get.
  destruct (same_elsewhere act x y); auto. rewrite (k_conj_0 S L). auto.
Qed.

Lemma conj_sum l : kconj S (sum S l) = sum S (map (kconj S) l).
Proof.
  unfold sum. induction l; simpl; [apply (k_conj_0 S L)|]. rewrite (k_conj_add S L), IHl. auto.
Qed.

Hypothesis NS : no_small S.

Definition same_op (o o' : lop S) (f : list Z -> list Z -> K) : Prop :=
  forall x y, configuration hs x -> configuration hs y -> op_element S hs o' x y = f x y.

Lemma mapped_inputs o (f : mat S -> mat S) :
  wf S hs o -> (forall m d, square S m d -> square S (f m) d) ->
  Forall (input_total S hs) (map (fun t => (f (fst t), snd t)) (terms_of S o)).
Proof.
  intros [W _] Hf. unfold terms_of. induction W; simpl; constructor; auto.
  apply good_input. destruct H as (G1 & G2 & G3 & G4). cbn [fst snd].
  split; auto.
Qed.

Lemma transpose_ok o : wf S hs o ->
  exists o', transpose S dp hs o = Ok o' /\ wf S hs o' /\ nzd_ok S o' /\
    forall x y, configuration hs x -> configuration hs y ->
      op_element S hs o' x y = op_element S hs o y x.
Proof.
  intros W. unfold transpose.
  pose proof (mapped_inputs o (transpose_mat S) W transpose_square) as HI.
  destruct (mk_lop_total S L depth hs Hs NS (lo_const S o) _ HI) as [o' E].
  exists o'. split; auto.
  destruct (mk_lop_ok S L depth hs Hs NS (lo_const S o) _ o'
              (Forall_impl _ (input_total_ok S hs) HI) E) as (W' & Hz & _ & El).
  split; auto. split; auto. intros x y Hx Hy. rewrite El by auto.
  unfold op_element, element. f_equal; [rewrite zlist_eqb_sym; auto|].
  rewrite map_map. cbn [fst snd]. apply (sum_ext S). intros t Ht.
  destruct W as [W _]. clear - W Ht Hx Hy.
  unfold terms_of in Ht. assert (G : good_term S hs (fst t) (snd t)).
  { revert Ht. induction W; simpl; [tauto|]. intros [<-|H']; auto. }
  apply transpose_term; auto; apply G.
Qed.

Lemma conjugate_ok o : wf S hs o ->
  exists o', conjugate S dp hs o = Ok o' /\ wf S hs o' /\ nzd_ok S o' /\
    forall x y, configuration hs x -> configuration hs y ->
      op_element S hs o' x y = kconj S (op_element S hs o x y).
Proof.
  intros W. unfold conjugate.
  pose proof (mapped_inputs o (conj_mat S) W conj_square) as HI.
  destruct (mk_lop_total S L depth hs Hs NS (kconj S (lo_const S o)) _ HI) as [o' E].
  exists o'. split; auto.
  destruct (mk_lop_ok S L depth hs Hs NS (kconj S (lo_const S o)) _ o'
              (Forall_impl _ (input_total_ok S hs) HI) E) as (W' & Hz & _ & El).
  split; auto. split; auto. intros x y Hx Hy. rewrite El by auto.
  unfold op_element, element. rewrite (k_conj_add S L), conj_sum, !map_map. cbn [fst snd].
  f_equal; [destruct (zlist_eqb x y); auto; rewrite (k_conj_0 S L); auto|].
  apply (sum_ext S). intros t Ht. apply conj_term.
Qed.

(** ** hermiticity *)

Definition herm_ok (o : lop S) : Prop :=
  lo_herm S o = true -> Forall (fun m => is_herm_mat S m = true) (lo_ops S o).

Lemma herm_mat_get m d i j : close_exact S -> square S m d -> is_herm_mat S m = true ->
  (i < d)%nat -> (j < d)%nat -> mget S m i j = kconj S (mget S m j i).
Proof.
  intros HC Hm H Hi Hj. unfold is_herm_mat in H.
  rewrite (square_nrows S m d), (square_ncols S m d) in H by (auto; lia).
  rewrite forallb_forall in H. specialize (H i). rewrite in_seq in H.
  assert (H' : forallb (fun j => kclose S (mget S m i j) (kconj S (mget S m j i))) (seq 0 d) = true)
    by (apply H; lia).
  rewrite forallb_forall in H'. specialize (H' j). rewrite in_seq in H'. apply HC. apply H'. lia.
Qed.

Lemma herm_element o : close_exact S -> wf S hs o -> herm_ok o -> lo_herm S o = true ->
  kconj S (lo_const S o) = lo_const S o ->
  forall x y, configuration hs x -> configuration hs y ->
    op_element S hs o x y = kconj S (op_element S hs o y x).
Proof.
  intros HC [W _] Hh E Hc x y Hx Hy. specialize (Hh E). unfold op_element, element.
  rewrite (k_conj_add S L), conj_sum, map_map. f_equal.
  { rewrite (zlist_eqb_sym y x). destruct (zlist_eqb x y); [auto|rewrite (k_conj_0 S L); auto]. }
  apply (sum_ext S). intros t Ht. unfold terms_of in Ht.
  assert (G : good_term S hs (fst t) (snd t) /\ is_herm_mat S (fst t) = true).
  { revert Ht. clear - W Hh. revert Hh. induction W; intros Hh; simpl; [tauto|].
    inversion Hh; subst. intros [<-|H']; auto. }
  destruct G as [(_ & Ha & _ & Hsq) Hm]. unfold term_element. change (entry S) with (mget S).
  rewrite (same_elsewhere_sym (snd t) y x)
    by (rewrite (configuration_length _ _ Hx), (configuration_length _ _ Hy); auto).
  destruct (same_elsewhere (snd t) x y); [|rewrite (k_conj_0 S L); auto].
  apply herm_mat_get with (d := local_dim hs (snd t)); auto; apply loc_index_lt; auto; apply Ha.
Qed.

Lemma add_operator_herm o m act o' :
  herm_ok o -> add_operator S dp hs o m act = Ok o' -> herm_ok o'.
Proof.
  intros Hh H. unfold add_operator in H.
  destruct (negb (nodupb act)); [discriminate|].
  destruct (existsb (fun s => (length hs <=? s)%nat) act); [discriminate|].
  destruct (forallb (forallb (fun k => negb (kbige S k))) m); [inversion H; subst; auto|].
  destruct (reorder S dp hs m act) as [r|e]; [|discriminate]. cbn [bind] in H.
  destruct (find_support (lo_act S o) (snd r) 0).
  - destruct (append_matrix _ _ _) as [dc|e]; [|discriminate]. cbn [bind] in H.
    inversion H; subst o'. unfold herm_ok. cbn [lo_herm lo_ops set_nzd]. intros G.
    apply Forall_forall. rewrite forallb_forall in G. auto.
  - destruct (negb _); [discriminate|].
    destruct (append_matrix _ _ _) as [dc|e]; [|discriminate]. cbn [bind] in H.
    inversion H; subst o'. unfold herm_ok. cbn [lo_herm lo_ops set_nzd]. intros G.
    apply Forall_forall. rewrite forallb_forall in G. auto.
Qed.

Lemma add_operators_herm ts : forall o o',
  herm_ok o -> add_operators S dp hs o ts = Ok o' -> herm_ok o'.
Proof.
  induction ts as [|t ts IH]; intros o o' Hh H.
  - inversion H; subst; auto.
  - rewrite add_operators_cons in H.
    destruct (add_operator S dp hs o (fst t) (snd t)) as [a|e] eqn:E; [|discriminate].
    cbn [bind] in H. eapply IH; [|eauto]. eapply add_operator_herm; eauto.
Qed.

Lemma mk_lop_herm c ts o : mk_lop S dp hs c ts = Ok o -> herm_ok o.
Proof.
  unfold mk_lop. destruct (negb _); [discriminate|]. apply add_operators_herm.
  intros _. constructor.
Qed.

Lemma iadd_herm a b o : herm_ok a -> iadd S dp hs a b = Ok o -> herm_ok o.
Proof.
  intros Hh H. unfold iadd in H.
  destruct (add_operators S dp hs a (terms_of S b)) as [r|e] eqn:E; [|discriminate].
  cbn [bind] in H. inversion H; subst o. apply add_operators_herm in E; auto.
Qed.

Lemma scale_herm c m : close_exact S -> kconj S c = c -> forall d, square S m d ->
  is_herm_mat S m = true -> is_herm_mat S (scale_mat S c m) = true.
Proof.
  intros HC Hc d Hm H. destruct (Nat.eq_dec d 0) as [->|Hd].
  { destruct Hm as [H1 _]. destruct m; [auto|discriminate]. }
  pose proof (scale_square S c m d Hm) as Hm'.
  unfold is_herm_mat. rewrite (square_nrows S _ d), (square_ncols S _ d) by (auto; lia).
  apply forallb_forall. intros i Hi. apply forallb_forall. intros j Hj.
  apply in_seq in Hi. apply in_seq in Hj. rewrite !(scale_get S L), (k_conj_mul S L), Hc.
  rewrite (herm_mat_get m d i j) by (auto; lia). apply (k_close_refl S L).
Qed.

Lemma imul_herm o c : close_exact S -> wf S hs o -> kconj S c = c -> herm_ok o ->
  herm_ok (imul_number S o c).
Proof.
  intros HC [W _] Hc Hh E. cbn [lo_herm lo_ops imul_number set_nzd] in *. specialize (Hh E).
  revert Hh. induction W; intros Hh; simpl; constructor; inversion Hh; subst; auto.
  eapply scale_herm; eauto. apply H.
Qed.

Lemma copy_herm o o' : copy S dp hs o = Ok o' -> herm_ok o'.
Proof. apply mk_lop_herm. Qed.

(** .H is the conjugate transpose whenever the flag and the constant allow *)
Lemma dagger_ok o : close_exact S -> wf S hs o -> herm_ok o ->
  (lo_herm S o = true -> kconj S (lo_const S o) = lo_const S o) ->
  exists o', dagger S dp hs o = Ok o' /\
    forall x y, configuration hs x -> configuration hs y ->
      op_element S hs o' x y = kconj S (op_element S hs o y x).
Proof.
  intros HC W Hh Hc. unfold dagger. destruct (lo_herm S o) eqn:E.
  - exists o. split; auto. apply herm_element; auto.
  - destruct (transpose_ok o W) as (t & Et & Wt & _ & Elt). rewrite Et. cbn [bind].
    destruct (conjugate_ok t Wt) as (c & Ec & Wc & _ & Elc). exists c. split; auto.
    intros x y Hx Hy. rewrite Elc, Elt by auto. auto.
Qed.

(** ** connected elements of a well-formed operator *)
Definition row_result (o : lop S) (x : list Z) (l : list (list Z * K)) : Prop :=
  (forall p, In p l -> configuration hs (fst p)) /\
  forall y, configuration hs y -> weight S l y = op_element S hs o x y.

Lemma get_conn_stored o ms x junk junkx :
  stored S hs o ms -> lo_nzd S o = true \/ diag_zero S o -> configuration hs x ->
  let f := element S hs (lo_const S o) (combine ms (lo_act S o)) x in
  (exists l, get_conn S hs o junk junkx x = Ok l /\ is_row S hs f l) \/
  (get_conn S hs o junk junkx x = Err Fault /\ forall y, configuration hs y -> f y = 0).
Proof.
  intros W2 Hz Hx f.
  destruct (row_spec S L hs o ms x Hs W2 Hx Hz) as (ps & HR & HC & HW).
  assert (HW' : forall y, configuration hs y ->
    weight S (combine (row_xs S o x ps) (row_mels S o ps)) y = f y) by exact HW.
  clear HW. rename HW' into HW. clearbody f.
  destruct (Nat.eq_dec (row_n S o ps) 0) as [E0|E0].
  - destruct (lo_act S o) as [|act acts] eqn:Ea.
    + left. eexists. split; [apply get_conn_ok; eauto|]. split; [exact HC|exact HW].
    + right. split.
      * unfold get_conn, get_conn_flattened. cbn [map sequence].
        rewrite (count_conn_ok S hs o x ps HR). cbn [bind sequence].
        rewrite E0. cbn [list_max fold_right list_sum seq map length Nat.max Nat.add].
        cbn [write_batch]. unfold row_n in E0.
        destruct (lo_nzd S o) eqn:En; [lia|]. cbn [bind fst snd].
        rewrite Ea. unfold row_ok in HR. rewrite Ea in HR.
        unfold rows_of in *. rewrite Ea in *. cbn [map] in *.
        inversion HR; subst. cbn [write_terms].
        rewrite (bget_ok dg _ 0) by auto. cbn [bind]. reflexivity.
      * intros y Hy. rewrite <- HW by auto.
        assert (E : combine (row_xs S o x ps) (row_mels S o ps) = []).
        { assert (length (row_mels S o ps) = 0%nat) by (rewrite row_mels_length; auto).
          destruct (row_mels S o ps); [|discriminate]. destruct (row_xs S o x ps); auto. }
        rewrite E. reflexivity.
  - left. eexists. split; [apply get_conn_ok; eauto; right; lia|]. split; [exact HC|exact HW].
Qed.

Lemma get_conn_correct o x junk junkx :
  wf S hs o -> nzd_ok S o -> configuration hs x ->
  (exists l, get_conn S hs o junk junkx x = Ok l /\ row_result o x l) \/
  (get_conn S hs o junk junkx x = Err Fault /\
   forall y, configuration hs y -> op_element S hs o x y = 0).
Proof.
  intros [W1 W2] Hz Hx. apply (get_conn_stored o (lo_ops S o) x junk junkx W2); auto.
  apply (nzd_cases S L NS o Hz).
Qed.

(** batches *)
Lemma batch_exists o xs :
  wf S hs o -> nzd_ok S o -> Forall (configuration hs) xs ->
  exists pss, batch_ok S hs o xs pss /\
    Forall2 (fun x ps => row_result o x (combine (row_xs S o x ps) (row_mels S o ps))) xs pss.
Proof.
  intros [W1 W2] Hz H. induction H as [|x xs Hx H IH].
  - exists []. split; constructor.
  - destruct IH as (pss & I1 & I2).
    destruct (row_spec S L hs o (lo_ops S o) x Hs W2 Hx (nzd_cases S L NS o Hz)) as (ps & HR & HC & HW).
    exists (ps :: pss). split; [constructor; auto|]. constructor; auto. split; [exact HC|exact HW].
Qed.

Lemma nonzero_row o x ps :
  row_result o x (combine (row_xs S o x ps) (row_mels S o ps)) ->
  (exists y, configuration hs y /\ op_element S hs o x y <> 0) -> (0 < row_n S o ps)%nat.
Proof.
  intros [_ HW] (y & Hy & Hne). destruct (Nat.eq_dec (row_n S o ps) 0) as [E0|E0]; [|lia].
  exfalso. apply Hne. rewrite <- HW by auto.
  assert (E : combine (row_xs S o x ps) (row_mels S o ps) = []).
  { assert (length (row_mels S o ps) = 0%nat) by (rewrite row_mels_length; auto).
    destruct (row_mels S o ps); [|discriminate]. destruct (row_xs S o x ps); auto. }
  rewrite E. reflexivity.
Qed.

(** ** sizes *)
Definition tight (o : lop S) : Prop :=
  Forall2 (fun m cn => forall r, (r < nrows S m)%nat -> length (nth r cn []) = row_nnz S m r)
          (lo_ops S o) (lo_conn S o).

Lemma append_matrix_tight m lss dc : append_matrix S m lss = Ok dc ->
  forall r, (r < nrows S m)%nat -> length (nth r (snd dc) []) = row_nnz S m r.
Proof.
  unfold append_matrix. destruct (Nat.eqb (nrows S m) (ncols S m)) eqn:E; [|discriminate].
  apply Nat.eqb_eq in E. cbn [negb].
  destruct (sequence _) as [cn|e] eqn:Es; [|discriminate]. cbn [bind]. intros H; inversion H; subst dc.
  cbn [snd]. intros r Hr. unfold row_nnz. rewrite <- E.
  assert (G : forall l cn, sequence (map (append_row S m lss) l) = Ok cn ->
     Forall2 (fun i row => length row = length (filter (fun j => negb (Nat.eqb i j) && kbig S (mget S m i j)) (seq 0 (nrows S m)))) l cn).
  { induction l as [|i l IH]; intros c Hc; simpl in Hc.
    - inversion Hc; constructor.
    - destruct (append_row S m lss i) as [row|e] eqn:Er; [|discriminate]. cbn [bind] in Hc.
      destruct (sequence (map (append_row S m lss) l)) as [t|e]; [|discriminate]. cbn [bind] in Hc.
      inversion Hc; subst. constructor; auto. clear - Er. unfold append_row in Er. revert row Er.
      generalize (filter (fun j => negb (Nat.eqb i j) && kbig S (mget S m i j)) (seq 0 (nrows S m))).
      induction l as [|j l IH]; intros row Er; simpl in Er; [inversion Er; auto|].
      destruct (number_to_state j lss) as [w|e]; [|discriminate]. cbn [bind] in Er.
      destruct (sequence _) as [t|e] eqn:Et; [|discriminate]. cbn [bind] in Er.
      inversion Er; subst. simpl. f_equal. apply IH; auto. }
  apply G in Es. eapply (Forall2_nth' _ _ _ 0%nat [] r) in Es; [|rewrite seq_length; auto].
  rewrite seq_nth in Es by auto. exact Es.
Qed.

Lemma Forall2_upd_both {A B} (R : A -> B -> Prop) l l' i v w :
  Forall2 R l l' -> R v w -> Forall2 R (upd l i v) (upd l' i w).
Proof.
  intros H. revert i. induction H; intros i Hv; simpl; [constructor|].
  destruct i; constructor; auto.
Qed.

Lemma add_operator_tight o m act o' :
  tight o -> add_operator S dp hs o m act = Ok o' -> tight o'.
Proof.
  intros Ht H. unfold add_operator in H.
  destruct (negb (nodupb act)); [discriminate|].
  destruct (existsb (fun s => (length hs <=? s)%nat) act); [discriminate|].
  destruct (forallb (forallb (fun k => negb (kbige S k))) m); [inversion H; subst; auto|].
  destruct (reorder S dp hs m act) as [r|e]; [|discriminate]. cbn [bind] in H.
  destruct (find_support (lo_act S o) (snd r) 0).
  - destruct (append_matrix _ _ _) as [dc|e] eqn:E; [|discriminate]. cbn [bind] in H.
    inversion H; subst o'. unfold tight. cbn [lo_ops lo_conn set_nzd].
    apply Forall2_upd_both; auto. eapply append_matrix_tight; eauto.
  - destruct (negb _); [discriminate|].
    destruct (append_matrix _ _ _) as [dc|e] eqn:E; [|discriminate]. cbn [bind] in H.
    inversion H; subst o'. unfold tight. cbn [lo_ops lo_conn set_nzd].
    apply Forall2_app; auto. constructor; auto. eapply append_matrix_tight; eauto.
Qed.

Lemma add_operators_tight ts : forall o o',
  tight o -> add_operators S dp hs o ts = Ok o' -> tight o'.
Proof.
  induction ts as [|t ts IH]; intros o o' Hh H.
  - inversion H; subst; auto.
  - rewrite add_operators_cons in H.
    destruct (add_operator S dp hs o (fst t) (snd t)) as [a|e] eqn:E; [|discriminate].
    cbn [bind] in H. eapply IH; [|eauto]. eapply add_operator_tight; eauto.
Qed.

Lemma mk_lop_tight c ts o : mk_lop S dp hs c ts = Ok o -> tight o.
Proof.
  unfold mk_lop. destruct (negb _); [discriminate|]. apply add_operators_tight. constructor.
Qed.

Lemma iadd_tight a b o : tight a -> iadd S dp hs a b = Ok o -> tight o.
Proof.
  intros Hh H. unfold iadd in H.
  destruct (add_operators S dp hs a (terms_of S b)) as [r|e] eqn:E; [|discriminate].
  cbn [bind] in H. inversion H; subst o. apply add_operators_tight in E; auto.
Qed.

Lemma fold_left_plus {A} (f : A -> nat) l a :
  fold_left (fun acc m => acc + f m)%nat l a = (a + list_sum (map f l))%nat.
Proof. revert a. induction l; intros; simpl; [lia|]. rewrite IHl. lia. Qed.

Lemma n_off_bound ms acts dgs cns rs ps :
  Forall2 (good_term S hs) ms acts -> terms_ok S hs ms acts dgs cns ->
  Forall2 (fun m cn => forall r, (r < nrows S m)%nat -> length (nth r cn []) = row_nnz S m r) ms cns ->
  picked S acts dgs cns rs ps -> 
  (n_off S ps <= list_sum (map (fun m => list_max (map (row_nnz S m) (seq 0 (nrows S m)))) ms))%nat.
Proof.
  intros HG HT Hti HP. revert ms HG HT Hti.
  induction HP as [|act acts dg dgs cn cns r rs ps H1 H2 HP IH]; intros ms HG HT Hti.
  - simpl. unfold n_off. simpl. lia.
  - inversion HT as [|m ms' a' as' dg' dgs' cn' cns' Ha HR HT']; subst. inversion HG as [|? ? ? ? G1 G2]; subst.
    inversion Hti as [|? ? ? ? T1 T2]; subst. specialize (IH ms' G2 HT' T2).
    unfold n_off in *. cbn [map snd list_sum fold_right]. unfold list_sum in *. cbn [fold_right].
    destruct G1 as (_ & _ & _ & Hsq). destruct HR as (L1 & L2 & _).
    assert (Hr : (r < nrows S m)%nat) by (rewrite (square_nrows S m _ Hsq); congruence).
    rewrite (T1 r Hr).
    assert (row_nnz S m r <= list_max (map (row_nnz S m) (seq 0 (nrows S m))))%nat.
    { apply list_max_ge. apply in_map. apply in_seq. lia. }
    simpl. lia.
Qed.

Lemma max_conn_bound o x ps :
  wf S hs o -> tight o -> row_ok S hs o x ps -> lo_ops S o <> [] \/ lo_nzd S o = false ->
  (row_n S o ps <= max_conn_size S o)%nat.
Proof.
  intros [W1 W2] Ht HP Hne. unfold max_conn_size. rewrite fold_left_plus.
  pose proof (n_off_bound _ _ _ _ _ _ W1 W2 Ht HP). unfold row_n.
  destruct (lo_nzd S o); [|lia]. destruct Hne as [Hne|]; [|discriminate].
  destruct (lo_ops S o); [congruence|]. cbn [length]. lia.
Qed.

(** ** distinct supports and the cut-off *)
Definition kept (ts : list (mat S * list nat)) : list (mat S * list nat) :=
  filter (fun t => negb (forallb (forallb (fun k => negb (kbige S k))) (fst t))) ts.

Definition chopped (ts : list (mat S * list nat)) : list (mat S * list nat) :=
  map (fun t => (chop S (local_dim hs (snd t)) (fst t), snd t)) ts.

Lemma find_support_none l act i : ~ In act l -> find_support l act i = None.
Proof.
  revert i. induction l as [|s l IH]; intros i H; simpl; auto.
  destruct (natlist_eqb act s) eqn:E; [apply natlist_eqb_eq in E; subst; simpl in H; tauto|].
  apply IH. simpl in H. tauto.
Qed.

Lemma terms_ok_acts ms acts dgs cns : terms_ok S hs ms acts dgs cns -> length ms = length acts.
Proof. induction 1; simpl; auto. Qed.

Lemma add_operators_distinct ts : forall o pre,
  Forall (valid_term S hs) ts -> Forall (fun t => increasing_sites (snd t)) ts ->
  NoDup (map snd pre ++ map snd ts) ->
  lo_act S o = map snd (kept pre) ->
  stored S hs o (map fst (chopped (kept pre))) -> nzd_ok S o ->
  exists o', add_operators S dp hs o ts = Ok o' /\ lo_act S o' = map snd (kept (pre ++ ts)) /\
    stored S hs o' (map fst (chopped (kept (pre ++ ts)))) /\ nzd_ok S o' /\ lo_const S o' = lo_const S o.
Proof.
  induction ts as [|[m act] ts IH]; intros o pre HV HI HN Ha Hst Hz.
  - exists o. rewrite app_nil_r. auto.
  - rewrite add_operators_cons. inversion HV as [|? ? V1 V2]; subst. inversion HI as [|? ? I1 I2]; subst.
    cbn [fst snd] in *. pose proof V1 as (Hne & HNa & HIa & Hsq). cbn [fst snd] in *.
    replace (pre ++ (m, act) :: ts) with ((pre ++ [(m, act)]) ++ ts) by (rewrite <- app_assoc; auto).
    assert (HN' : NoDup (map snd (pre ++ [(m, act)]) ++ map snd ts)).
    { rewrite map_app, <- app_assoc. exact HN. }
    unfold add_operator.
    replace (nodupb act) with true by (symmetry; apply nodupb_spec; auto). cbn [negb].
    replace (existsb (fun s => (length hs <=? s)%nat) act) with false.
    2:{ symmetry. destruct (existsb _ act) eqn:E; auto. apply existsb_exists in E.
        destruct E as (s & Hin & E). apply Nat.leb_le in E. apply HIa in Hin. lia. }
    destruct (forallb (forallb (fun k => negb (kbige S k))) m) eqn:Esmall.
    { cbn [bind]. assert (EK : kept (pre ++ [(m, act)]) = kept pre).
      { unfold kept. rewrite filter_app. cbn [filter fst]. rewrite Esmall. cbn [negb]. apply app_nil_r. }
      apply IH; auto; rewrite EK; auto. }
    rewrite reorder_sorted by auto. cbn [bind fst snd].
    rewrite Ha, find_support_none.
    2:{ intros C. apply in_map_iff in C. destruct C as (t & E & Hin). unfold kept in Hin.
        apply filter_In in Hin. destruct Hin as [Hin _]. cbn [map snd] in HN.
        apply NoDup_remove_2 in HN. apply HN. apply in_app_iff. left. apply in_map_iff. eauto. }
    rewrite (square_nrows S m _ Hsq).
    replace (nprod (map (@length Z) (lss_of hs act))) with (local_dim hs act)
      by (rewrite local_dim_mdim; reflexivity).
    rewrite Nat.eqb_refl. cbn [negb].
    destruct (append_matrix_ok S hs m act Hsq) as (dc & EA & HR & _). rewrite EA. cbn [bind].
    assert (EK : kept (pre ++ [(m, act)]) = kept pre ++ [(m, act)]).
    { unfold kept. rewrite filter_app. cbn [filter fst]. rewrite Esmall. auto. }
    set (o1 := mkLop S (lo_ops S o ++ [m]) (map snd (kept pre) ++ [act]) (lo_diag S o ++ [fst dc])
             (lo_conn S o ++ [snd dc]) (lo_const S o) (lo_nzd S o)
             (forallb (is_herm_mat S) (lo_ops S o ++ [m]))).
    destruct (IH (set_nzd S o1 (has_nonzero_diagonal S o1)) (pre ++ [(m, act)])) as (o' & E & G1 & G2 & G3 & G4);
      auto; try (rewrite EK).
    + unfold o1. cbn [lo_act set_nzd]. rewrite map_app. auto.
    + unfold stored, o1. cbn [lo_act lo_diag lo_conn set_nzd]. unfold chopped. rewrite !map_app.
      unfold stored in Hst. rewrite Ha in Hst. apply terms_ok_snoc; auto.
      split; auto.
    + reflexivity.
    + exists o'. split; auto.
Qed.

End Laws.
