(** * _reorder_kronecker_product when all sites have the same local dimension *)
From Coq Require Import ZArith List Bool Lia Permutation Sorting.Sorted Ring.
From Verif Require Import Base BaseFacts Hilbert_Model Hilbert_Spec Hilbert_Proofs HilbertOps_Model Scalar
  LocalOp_Model LocalOp_Spec LocalOp_Facts.
Import ListNotations.

Local Arguments Nat.div : simpl never.
Local Arguments Nat.modulo : simpl never.

(** ** sorted lists of sites *)
Lemma sort_sites_perm l : Permutation l (sort_sites l).
Proof.
  unfold sort_sites. replace l with (map Z.to_nat (map Z.of_nat l)) at 1.
  - apply Permutation_map. apply np_sort_perm.
  - rewrite map_map. rewrite <- (map_id l) at 2. apply map_ext. intros; apply Nat2Z.id.
Qed.

Lemma sort_sites_in l s : In s (sort_sites l) <-> In s l.
Proof.
  split; apply Permutation_in; [apply Permutation_sym|]; apply sort_sites_perm.
Qed.

Lemma sort_sites_length l : length (sort_sites l) = length l.
Proof. symmetry. apply Permutation_length, sort_sites_perm. Qed.

Lemma sort_sites_sorted l : NoDup l -> StronglySorted lt (sort_sites l).
Proof.
  intros H. unfold sort_sites.
  assert (N : NoDup (map Z.of_nat l))
    by (apply FinFun.Injective_map_NoDup; auto; intros a b E; lia).
  pose proof (np_sort_strict _ N) as P.
  assert (Q : Forall (fun z => 0 <= z)%Z (np_sort (map Z.of_nat l))).
  { apply Forall_forall. intros z Hz. rewrite np_sort_in in Hz. apply in_map_iff in Hz.
    destruct Hz as (n & <- & _). lia. }
  revert P Q. generalize (np_sort (map Z.of_nat l)). intros zl P.
  induction P; simpl; intros Q; constructor; inversion Q; subst; auto.
  rewrite Forall_map. rewrite Forall_forall in *. intros y Hy.
  specialize (H0 y Hy). specialize (H4 y Hy). lia.
Qed.

Lemma sorted_lt_NoDup l : StronglySorted lt l -> NoDup l.
Proof.
  induction 1; constructor; auto. intros Hin. rewrite Forall_forall in H0.
  apply H0 in Hin. lia.
Qed.

Lemma sorted_same_elements a : forall b,
  StronglySorted lt a -> StronglySorted lt b -> (forall s, In s a <-> In s b) -> a = b.
Proof.
  induction a as [|x a IH]; intros b Ha Hb H.
  - destruct b as [|y b]; auto. exfalso. apply (H y). simpl; auto.
  - destruct b as [|y b]; [exfalso; apply (H x); simpl; auto|].
    inversion Ha; inversion Hb; subst. rewrite Forall_forall in *.
    assert (x = y).
    { assert (A : In x (y :: b)) by (apply H; simpl; auto).
      assert (B : In y (x :: a)) by (apply H; simpl; auto).
      simpl in A, B. destruct A as [A|A], B as [B|B]; auto.
      apply H7 in A. apply H3 in B. lia. }
    subst. f_equal. apply IH; auto. intros s. split; intros Hs.
    + assert (A : In s (y :: b)) by (apply H; simpl; auto). destruct A; auto. subst.
      apply H3 in Hs. lia.
    + assert (A : In s (y :: a)) by (apply H; simpl; auto). destruct A; auto. subst.
      apply H7 in Hs. lia.
Qed.

Lemma sort_sites_id l : StronglySorted lt l -> sort_sites l = l.
Proof.
  intros H. apply sorted_same_elements; auto.
  - apply sort_sites_sorted, sorted_lt_NoDup; auto.
  - intros; apply sort_sites_in.
Qed.

Lemma first_pos_nth x l : In x l -> (first_pos x l < length l)%nat /\ nth (first_pos x l) l 0%nat = x.
Proof.
  induction l; simpl; [tauto|]. intros H. destruct (Nat.eqb_spec x a).
  - subst. split; auto. lia.
  - destruct H; [congruence|]. destruct (IHl H). split; [lia|auto].
Qed.

(** ** the auxiliary Fock space *)
Lemma np_sort_sorted_id l : StronglySorted Z.le l -> np_sort l = l.
Proof.
  induction 1; simpl; auto. rewrite IHStronglySorted. destruct l; auto. simpl.
  inversion H0; subst. destruct (Z.leb_spec a z); auto. lia.
Qed.

Lemma np_sort_zrange n : np_sort (zrange n) = zrange n.
Proof.
  apply np_sort_sorted_id. pose proof (zrange_sorted n) as H. induction H; constructor; auto.
  eapply Forall_impl; [|exact H0]. intros; lia.
Qed.

Section Fock.
Variables (d k : nat).
Hypothesis Hd : (0 < d)%nat.
Hypothesis Hk : (Z.of_nat d ^ Z.of_nat k <= max_states)%Z.

Let h := Fock (Z.of_nat d - 1) true k None.
Let ls := zrange (Z.of_nat d).

Lemma fock_ls : local_states h = Some ls.
Proof. unfold h, ls. simpl. replace (Z.of_nat d - 1 + 1)%Z with (Z.of_nat d) by lia. auto. Qed.

Lemma ls_len : length ls = d.
Proof. unfold ls. rewrite zrange_length. lia. Qed.

Lemma fock_index : homog_index (local_states h) k (constraint_fn h) = Ok (ls, []).
Proof.
  rewrite fock_ls. unfold homog_index. rewrite ls_len.
  destruct (Z.leb_spec (Z.of_nat d ^ Z.of_nat k) max_states); [|lia].
  simpl. unfold ls. rewrite np_sort_zrange. auto.
Qed.

Lemma fock_n_states : n_states h = Ok (Z.of_nat d ^ Z.of_nat k)%Z.
Proof.
  unfold h. cbn [n_states]. fold h. unfold homog_n_states. rewrite fock_index. simpl.
  unfold hi_n_states. rewrite ls_len. auto.
Qed.

Lemma fock_all : all_states h = Ok (map (word ls k) (zrange (Z.of_nat d ^ Z.of_nat k))).
Proof.
  unfold all_states. rewrite fock_n_states. cbn [bind]. apply sequence_ok.
  intros n Hn. apply in_zrange in Hn. unfold h. cbn [numbers_to_states]. fold h.
  rewrite fock_n_states. cbn [bind]. destruct (Z.leb_spec (Z.of_nat d ^ Z.of_nat k) n); [lia|].
  unfold homog_numbers_to_states. rewrite fock_index. simpl.
  apply number_to_state_word; [|rewrite ls_len; auto].
  intros E. pose proof ls_len as P. rewrite E in P. simpl in P. lia.
Qed.

Lemma fock_number s : length s = k ->
  states_to_numbers h s = Ok (hi_state_to_number ls k s).
Proof.
  intros Hs. unfold states_to_numbers, h. cbn [hsize states_to_numbers_]. fold h.
  rewrite Hs, Nat.eqb_refl. unfold homog_states_to_numbers. rewrite fock_index. auto.
Qed.

Lemma word_of_number s : length s = k -> (forall v, In v s -> In v ls) ->
  word ls k (hi_state_to_number ls k s) = s /\
  (0 <= hi_state_to_number ls k s < Z.of_nat d ^ Z.of_nat k)%Z.
Proof.
  intros HL HI. pose proof (indexing_word ls k (zrange_sorted _)) as IX. rewrite ls_len in IX.
  destruct (ix_onto _ _ _ _ IX s) as (n & Hn & E); [split; auto|].
  rewrite <- E. rewrite state_to_number_word; auto.
  - apply zrange_sorted.
  - intros E'. pose proof ls_len as P. rewrite E' in P. simpl in P. lia.
  - rewrite ls_len. auto.
Qed.

End Fock.

(** digits of a word *)
Definition digits (lss : list (list Z)) (w : list Z) : list Z :=
  map (fun p => Z.of_nat (pos_in (fst p) (snd p))) (combine lss w).

Lemma digits_length lss w : length w = length lss -> length (digits lss w) = length lss.
Proof. intros H. unfold digits. rewrite map_length, combine_length. lia. Qed.

Lemma zrange_search d x : (0 <= x < d)%Z -> searchsorted (zrange d) x = Z.to_nat x.
Proof.
  intros H. pose proof (searchsorted_nth (zrange d) (Z.to_nat x) 0%Z (zrange_sorted d)) as P.
  rewrite zrange_nth in P by lia. rewrite Z2Nat.id in P by lia. apply P.
  rewrite zrange_length. lia.
Qed.

Lemma digits_number d lss w : Forall (fun ls => length ls = d) lss -> is_mword lss w ->
  hi_state_to_number (zrange (Z.of_nat d)) (length lss) (digits lss w) = Z.of_nat (mrank lss w).
Proof.
  revert w. induction lss as [|l lss IH] using rev_ind; intros w HF Hw.
  - inversion Hw; subst. reflexivity.
  - apply is_mword_snoc_inv in Hw. destruct Hw as (w' & v & -> & Hw & Hv).
    apply Forall_app in HF. destruct HF as [HF Hl]. inversion Hl; subst.
    pose proof (is_mword_length _ _ Hw) as HL.
    unfold digits. rewrite combine_snoc by auto. rewrite map_app. cbn [map fst snd].
    fold (digits lss w'). rewrite app_length. cbn [length]. rewrite Nat.add_1_r.
    rewrite state_to_number_snoc by (apply digits_length; auto).
    rewrite IH by auto. rewrite mrank_snoc by auto. rewrite zrange_length, Nat2Z.id.
    pose proof (pos_in_lt _ _ Hv). rewrite zrange_search by lia. rewrite Nat2Z.id. lia.
Qed.

Lemma digits_bound d lss w : Forall (fun ls => length ls = d) lss -> is_mword lss w ->
  forall v, In v (digits lss w) -> In v (zrange (Z.of_nat d)).
Proof.
  intros HF H. unfold digits. revert HF. induction H; simpl; intros HF; [tauto|].
  inversion HF; subst. intros u [<-|Hu]; [|apply IHForall2; auto].
  apply in_zrange. pose proof (pos_in_lt _ _ H). lia.
Qed.

Lemma digits_sites hs x act :
  digits (lss_of hs act) (x_sites x act) =
  map (fun s => Z.of_nat (pos_in (nth s hs []) (nth s x 0%Z))) act.
Proof.
  unfold digits, lss_of, x_sites. induction act; simpl; f_equal; auto.
Qed.

Section Reorder.
Variable S : scalars.
Variable depth : nat.

Lemma mk_Fock_ok m N : (m + 1 <= max_ind)%Z -> mk_Fock (Some m) N None 0 = Ok (Fock m true N None).
Proof. intros H. unfold mk_Fock. simpl. destruct (Z.ltb_spec max_ind (m + 1)); [lia|]. auto. Qed.

Lemma hmul_fock m n : (m + 1 <= max_ind)%Z -> (0 < n)%nat ->
  hmul (Datatypes.S depth) (Fock m true 1 None) (Fock m true n None) = Ok (Fock m true (Datatypes.S n) None).
Proof.
  intros H Hn. cbn [hmul].
  destruct (hilbert_eqb (Fock m true 1 None) (Fock m true n None)) eqn:E.
  - unfold hilbert_eqb in E. simpl in E.
    assert (n = 1)%nat.
    { destruct n as [|[|n]]; auto; [lia|]. exfalso. revert E.
      destruct (m =? m)%Z; simpl; discriminate. }
    subst. unfold hpow. simpl Nat.mul. rewrite mk_Fock_ok; auto.
  - cbn [mul_sametype]. rewrite Z.eqb_refl. rewrite mk_Fock_ok by auto. auto.
Qed.

Lemma subspace_fold m (dim : nat -> Z) l n : (m + 1 <= max_ind)%Z -> (0 < n)%nat ->
  (forall s, In s l -> (dim s - 1)%Z = m) ->
  fold_left (fun acc site =>
      let? a := acc in
      let? f := mk_Fock (Some (dim site - 1)%Z) 1 None 0 in
      hmul (Datatypes.S depth) f a) l (Ok (Fock m true n None)) =
  Ok (Fock m true (n + length l) None).
Proof.
  intros H. revert n. induction l as [|s l IH]; intros n Hn Hd; cbn [fold_left length].
  - rewrite Nat.add_0_r. auto.
  - cbn [bind]. rewrite (Hd s) by (simpl; auto). rewrite mk_Fock_ok by auto. cbn [bind].
    rewrite hmul_fock by auto. rewrite IH by (try lia; intros; apply Hd; simpl; auto).
    replace (Datatypes.S n + length l)%nat with (n + Datatypes.S (length l))%nat by lia. auto.
Qed.

(** the permutation of the basis states *)
Lemma reorder_correct hs m act d :
  sorted_space hs -> act <> [] -> sites_ok hs act -> (0 < d)%nat ->
  (forall s, In s act -> length (nth s hs []) = d) ->
  (Z.of_nat d ^ Z.of_nat (length act) <= 2 ^ 31 - 1)%Z ->
  square S m (local_dim hs act) ->
  exists m', reorder S (Datatypes.S depth) hs m act = Ok (m', sort_sites act) /\
    square S m' (local_dim hs act) /\
    forall x y, configuration hs x -> configuration hs y ->
      mget S m' (loc_index hs (sort_sites act) x) (loc_index hs (sort_sites act) y) =
      mget S m (loc_index hs act x) (loc_index hs act y).
Proof.
  intros Hs Hne [HN HI] Hd Hu Hb Hsq. unfold reorder.
  destruct (natlist_eqb (sort_sites act) act) eqn:E.
  - apply natlist_eqb_eq in E. exists m. rewrite E. split; auto.
  - cbv zeta. set (so := sort_sites act).
    assert (Hin : forall s, In s so <-> In s act) by (intros; apply sort_sites_in).
    assert (Hlen : length so = length act) by apply sort_sites_length.
    assert (Hdim : forall s, In s act -> (Z.of_nat (length (nth s hs [])) - 1 = Z.of_nat d - 1)%Z).
    { intros s H. rewrite Hu by auto. auto. }
    assert (Hso : so <> []).
    { intros C. rewrite C in Hlen. destruct act; simpl in *; congruence. }
    assert (Hhd : In (nth 0 so 0%nat) act).
    { apply Hin. apply nth_In. destruct so; simpl; [congruence|lia]. }
    rewrite Hdim by auto.
    assert (Hk1 : (1 <= length act)%nat) by (destruct act; simpl; [congruence|lia]).
    assert (Hm : (Z.of_nat d - 1 + 1 <= max_ind)%Z).
    { assert (Z.of_nat d ^ 1 <= Z.of_nat d ^ Z.of_nat (length act))%Z
        by (apply Z.pow_le_mono_r; lia).
      rewrite Z.pow_1_r in H. unfold max_ind. lia. }
    rewrite mk_Fock_ok by auto. cbn [bind].
    rewrite (subspace_fold (Z.of_nat d - 1)
               (fun site => Z.of_nat (length (nth site hs []))) (tl so) 1); auto.
    2:{ intros s H. apply Hdim, Hin. destruct so; [simpl in H; tauto|simpl in *; auto]. }
    cbn [bind].
    replace (1 + length (tl so))%nat with (length act)
      by (rewrite <- Hlen; destruct so; [congruence|simpl; lia]).
    set (k := length act) in *.
    assert (Hk : (Z.of_nat d ^ Z.of_nat k <= max_states)%Z) by (unfold max_states; lia).
    rewrite fock_all by auto. cbn [bind].
    set (ls := zrange (Z.of_nat d)).
    set (ids := map (fun site => first_pos site so) act).
    assert (Hids : length ids = k) by (unfold ids; rewrite map_length; auto).
    rewrite (sequence_ok _ (fun s => hi_state_to_number ls k (map (fun i => nth i s 0%Z) ids))).
    2:{ intros s _. apply fock_number; auto. rewrite map_length. auto. }
    cbn [bind].
    rewrite (map_map (word ls k)
               (fun s => hi_state_to_number ls k (map (fun i => nth i s 0%Z) ids))).
    set (F := fun n => hi_state_to_number ls k (map (fun i => nth i (word ls k n) 0%Z) ids)).
    set (idx := map Z.to_nat (map F (zrange (Z.of_nat d ^ Z.of_nat k)))).
    assert (HD : local_dim hs act = Z.to_nat (Z.of_nat d ^ Z.of_nat k)).
    { unfold local_dim, k. clear -Hu. rewrite <- Nat2Z.inj_pow, Nat2Z.id.
      induction act; simpl; auto. rewrite IHact by (intros; apply Hu; simpl; auto).
      rewrite (Hu a) by (simpl; auto). auto. }
    assert (HDpos : (0 < local_dim hs act)%nat).
    { rewrite HD. assert (0 < Z.of_nat d ^ Z.of_nat k)%Z by (apply Z.pow_pos_nonneg; lia). lia. }
    assert (Hix : length idx = local_dim hs act).
    { unfold idx. rewrite !map_length, zrange_length. auto. }
    assert (HFall : Forall (fun l => length l = d) (lss_of hs so)).
    { unfold lss_of. apply Forall_map, Forall_forall. intros s H. apply Hu, Hin; auto. }
    assert (HFall' : Forall (fun l => length l = d) (lss_of hs act)).
    { unfold lss_of. apply Forall_map, Forall_forall. intros s H. apply Hu; auto. }
    assert (Hnth : forall n, (0 <= n < Z.of_nat d ^ Z.of_nat k)%Z ->
               nth (Z.to_nat n) idx 0%nat = Z.to_nat (F n)).
    { intros n Hn. unfold idx. rewrite map_map.
      rewrite nth_indep with (d' := Z.to_nat (F 0%Z)) by (rewrite map_length, zrange_length; lia).
      rewrite (map_nth (fun x => Z.to_nat (F x))). rewrite zrange_nth by lia.
      rewrite Z2Nat.id by lia. auto. }
    assert (HFb : forall n, (0 <= n < Z.of_nat d ^ Z.of_nat k)%Z ->
               (0 <= F n < Z.of_nat d ^ Z.of_nat k)%Z).
    { intros n Hn. unfold F. apply word_of_number; auto.
      - rewrite map_length; auto.
      - intros v Hv. apply in_map_iff in Hv. destruct Hv as (i & <- & Hi).
        unfold ids in Hi. apply in_map_iff in Hi. destruct Hi as (s & <- & Hs').
        pose proof (indexing_word ls k (zrange_sorted _)) as IX.
        replace (Z.of_nat (length ls)) with (Z.of_nat d) in IX
          by (unfold ls; rewrite zrange_length; lia).
        destruct (ix_in _ _ _ _ IX n Hn) as [HwL HwI]. apply HwI. apply nth_In. rewrite HwL.
        rewrite <- Hlen. apply first_pos_nth. apply Hin; auto. }
    (* the index of x in the sorted order, and what it is mapped to *)
    assert (HX : forall x, configuration hs x ->
               nth (loc_index hs so x) idx 0%nat = loc_index hs act x).
    { intros x Hx.
      assert (W1 : is_mword (lss_of hs so) (x_sites x so))
        by (apply x_sites_mword; auto; intros s H; apply HI, Hin; auto).
      assert (W2 : is_mword (lss_of hs act) (x_sites x act)) by (apply x_sites_mword; auto).
      pose proof (digits_number d _ _ HFall W1) as N1.
      pose proof (digits_number d _ _ HFall' W2) as N2.
      rewrite lss_of_length, <- loc_index_mrank in N1, N2.
      rewrite Hlen in N1. fold k in N1, N2. fold ls in N1, N2.
      pose proof (digits_bound d _ _ HFall W1) as B1.
      destruct (word_of_number d k Hd (digits (lss_of hs so) (x_sites x so))) as [WE WB]; auto.
      { rewrite digits_length; rewrite ?x_sites_length, ?lss_of_length; auto. }
      fold ls in WE, WB. rewrite N1 in WE, WB.
      assert (EF : F (Z.of_nat (loc_index hs so x)) = Z.of_nat (loc_index hs act x)).
      { unfold F. rewrite WE. rewrite <- N2. f_equal. unfold ids. rewrite map_map.
        rewrite !digits_sites. apply map_ext_in. intros s H.
        destruct (first_pos_nth s so) as [P1 P2]; [apply Hin; auto|].
        set (g := fun s => Z.of_nat (pos_in (nth s hs []) (nth s x 0%Z))).
        rewrite nth_indep with (d' := g 0%nat) by (rewrite map_length; auto).
        rewrite (map_nth g). rewrite P2. auto. }
      specialize (Hnth _ WB). rewrite Nat2Z.id in Hnth. rewrite Hnth, EF. apply Nat2Z.id. }
    assert (HC : forallb (fun n => (n <? nrows S m)%nat && (n <? ncols S m)%nat) idx = true).
    { apply forallb_forall. intros n Hn. unfold idx in Hn. rewrite map_map in Hn.
      apply in_map_iff in Hn. destruct Hn as (z & <- & Hz). apply in_zrange in Hz.
      rewrite (square_nrows S _ _ Hsq), (square_ncols S _ _ Hsq) by auto.
      specialize (HFb z Hz). rewrite HD. apply andb_true_iff.
      split; apply Nat.ltb_lt; lia. }
    rewrite HC. eexists. split; [reflexivity|]. rewrite Hix. split; [apply mbuild_square|].
    intros x y Hx Hy.
    assert (ED : local_dim hs act = local_dim hs so) by (apply local_dim_perm, sort_sites_perm).
    assert (HI' : forall s, In s so -> (s < length hs)%nat) by (intros s H; apply HI, Hin; auto).
    rewrite mbuild_get; rewrite ?ED; try (apply loc_index_lt; auto).
    rewrite !HX by auto. auto.
Qed.

Lemma reorder_sorted hs m act : increasing_sites act ->
  reorder S depth hs m act = Ok (m, act).
Proof.
  intros H. unfold reorder. rewrite sort_sites_id by auto.
  replace (natlist_eqb act act) with true by (symmetry; apply natlist_eqb_eq; auto). auto.
Qed.

(** when the sites are not ordered and the local space is too large to be enumerated the
    code raises *)
Lemma reorder_too_large hs m act d r :
  act <> [] -> (0 < d)%nat -> (forall s, In s act -> length (nth s hs []) = d) ->
  reorder S (Datatypes.S depth) hs m act = Ok r ->
  increasing_sites act \/ NoDup act -> 
  (r = (m, act) /\ sort_sites act = act) \/ (Z.of_nat d ^ Z.of_nat (length act) <= 2 ^ 31 - 1)%Z.
Proof.
  intros Hne Hd Hu HR _. unfold reorder in HR.
  destruct (natlist_eqb (sort_sites act) act) eqn:E.
  - left. inversion HR. split; auto. apply natlist_eqb_eq; auto.
  - right. cbv zeta in HR. set (so := sort_sites act) in *.
    assert (Hin : forall s, In s so <-> In s act) by (intros; apply sort_sites_in).
    assert (Hlen : length so = length act) by apply sort_sites_length.
    assert (Hdim : forall s, In s act -> (Z.of_nat (length (nth s hs [])) - 1 = Z.of_nat d - 1)%Z).
    { intros s H. rewrite Hu by auto. auto. }
    assert (Hso : so <> []).
    { intros C. rewrite C in Hlen. destruct act; simpl in *; congruence. }
    assert (Hhd : In (nth 0 so 0%nat) act).
    { apply Hin. apply nth_In. destruct so; simpl; [congruence|lia]. }
    rewrite Hdim in HR by auto.
    destruct (Z_le_gt_dec (Z.of_nat d - 1 + 1) max_ind) as [Hm|Hm].
    2:{ exfalso. unfold mk_Fock in HR. simpl bind in HR.
        destruct (Z.ltb_spec max_ind (Z.of_nat d - 1 + 1)); [discriminate|lia]. }
    rewrite mk_Fock_ok in HR by auto. cbn [bind] in HR.
    rewrite (subspace_fold (Z.of_nat d - 1)
               (fun site => Z.of_nat (length (nth site hs []))) (tl so) 1) in HR; auto.
    2:{ intros s H. apply Hdim, Hin. destruct so; [simpl in H; tauto|simpl in *; auto]. }
    cbn [bind] in HR.
    replace (1 + length (tl so))%nat with (length act) in HR
      by (rewrite <- Hlen; destruct so; [congruence|simpl; lia]).
    destruct (Z_le_gt_dec (Z.of_nat d ^ Z.of_nat (length act)) (2 ^ 31 - 1)) as [|Hg]; auto.
    exfalso. unfold all_states in HR. cbn [n_states] in HR. unfold homog_n_states in HR.
    rewrite fock_ls in HR by auto. unfold homog_index in HR.
    rewrite zrange_length, Z2Nat.id in HR by lia.
    destruct (Z.leb_spec (Z.of_nat d ^ Z.of_nat (length act)) max_states); [unfold max_states in *; lia|].
    discriminate.
Qed.

End Reorder.
