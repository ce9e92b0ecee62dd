(** * Facts about sums, matrices and mixed-radix indices used for local operators *)
From Coq Require Import ZArith List Bool Lia Permutation Sorting.Sorted Ring.
From Verif Require Import Base BaseFacts Hilbert_Model HilbertOps_Model Scalar LocalOp_Model LocalOp_Spec.
Import ListNotations.

Local Arguments Nat.div : simpl never.
Local Arguments Nat.modulo : simpl never.

Lemma Forall2_length {A B} (R : A -> B -> Prop) l l' : Forall2 R l l' -> length l = length l'.
Proof. induction 1; simpl; auto. Qed.

(** ** equality tests *)
Lemma natlist_eqb_eq a b : natlist_eqb a b = true <-> a = b.
Proof.
  revert b; induction a; destruct b; simpl; split; intros H; try discriminate; auto.
  - apply andb_true_iff in H. destruct H as [H1 H2]. apply Nat.eqb_eq in H1.
    apply IHa in H2. subst; auto.
  - inversion H; subst. rewrite Nat.eqb_refl. simpl. apply IHa; auto.
Qed.

Lemma nat_mem_in x l : nat_mem x l = true <-> In x l.
Proof.
  unfold nat_mem. rewrite existsb_exists. split.
  - intros (y & H & E). apply Nat.eqb_eq in E. subst; auto.
  - intros H. exists x. rewrite Nat.eqb_refl. auto.
Qed.

Lemma nat_mem_false x l : nat_mem x l = false <-> ~ In x l.
Proof. rewrite <- nat_mem_in. destruct (nat_mem x l); split; intros; congruence. Qed.

Lemma nodupb_spec l : nodupb l = true <-> NoDup l.
Proof.
  induction l; simpl; split; intros H; auto; try constructor.
  - apply andb_true_iff in H. destruct H as [H _]. apply negb_true_iff in H.
    apply nat_mem_false; auto.
  - apply andb_true_iff in H. apply IHl. tauto.
  - inversion H; subst. apply andb_true_iff. split; [|apply IHl; auto].
    apply negb_true_iff, nat_mem_false; auto.
Qed.

Lemma zlist_eqb_false a b : zlist_eqb a b = false <-> a <> b.
Proof.
  destruct (zlist_eqb a b) eqn:E; split; intros; try congruence.
  - exfalso. apply H. apply zlist_eqb_eq; auto.
  - intros ->. assert (zlist_eqb b b = true) by (apply zlist_eqb_eq; auto). congruence.
Qed.

Lemma zlist_eqb_refl a : zlist_eqb a a = true.
Proof. apply zlist_eqb_eq; auto. Qed.

Lemma zlist_eqb_sym a b : zlist_eqb a b = zlist_eqb b a.
Proof.
  destruct (zlist_eqb b a) eqn:E.
  - apply zlist_eqb_eq in E. subst. apply zlist_eqb_refl.
  - apply zlist_eqb_false in E. apply zlist_eqb_false. congruence.
Qed.

(** ** positions *)
Lemma pos_in_lt ls v : In v ls -> (pos_in ls v < length ls)%nat.
Proof.
  induction ls; simpl; [tauto|]. intros [->|H].
  - rewrite Z.eqb_refl. lia.
  - destruct (Z.eqb a v); [lia|]. apply IHls in H. lia.
Qed.

Lemma pos_in_nth ls v d : In v ls -> nth (pos_in ls v) ls d = v.
Proof.
  induction ls; simpl; [tauto|]. intros H. destruct (Z.eqb_spec a v); auto.
  apply IHls. destruct H; congruence.
Qed.

Lemma pos_in_inj ls v w : In v ls -> In w ls -> pos_in ls v = pos_in ls w -> v = w.
Proof.
  intros Hv Hw E. rewrite <- (pos_in_nth ls v 0%Z Hv), <- (pos_in_nth ls w 0%Z Hw).
  congruence.
Qed.

Lemma nth_pos_in ls i d : NoDup ls -> (i < length ls)%nat -> pos_in ls (nth i ls d) = i.
Proof.
  intros H; revert i; induction H; simpl; intros i Hi; [lia|]. destruct i.
  - rewrite Z.eqb_refl; auto.
  - destruct (Z.eqb_spec x (nth i l d)).
    + exfalso. apply H. rewrite e. apply nth_In. lia.
    + rewrite IHNoDup by lia. auto.
Qed.

Lemma searchsorted_pos ls v :
  StronglySorted Z.lt ls -> In v ls -> searchsorted ls v = pos_in ls v.
Proof.
  intros Hs Hv. destruct (searchsorted_in ls v Hs Hv) as [H1 H2].
  rewrite <- (H2 0%Z) at 2. rewrite nth_pos_in; auto. apply StronglySorted_lt_NoDup; auto.
Qed.

(** ** mixed radix words, last letter least significant *)
Fixpoint rword (rl : list (list Z)) (n : nat) : list Z :=
  match rl with
  | [] => []
  | l :: r => rword r (n / length l) ++ [nth (n mod length l) l 0%Z]
  end.
Definition mword (lss : list (list Z)) (n : nat) : list Z := rword (rev lss) n.

Definition mrank (lss : list (list Z)) (w : list Z) : nat :=
  fold_left (fun acc p => acc * length (fst p) + pos_in (fst p) (snd p))%nat
            (combine lss w) O.

Definition mdim (lss : list (list Z)) : nat := nprod (map (@length Z) lss).

Definition is_mword (lss : list (list Z)) (w : list Z) : Prop :=
  Forall2 (fun v ls => In v ls) w lss.

Lemma nprod_app a b : nprod (a ++ b) = (nprod a * nprod b)%nat.
Proof. unfold nprod. induction a; simpl; lia. Qed.

Lemma nprod_perm a b : Permutation a b -> nprod a = nprod b.
Proof. unfold nprod. induction 1; simpl; lia. Qed.

Lemma mdim_app a b : mdim (a ++ b) = (mdim a * mdim b)%nat.
Proof. unfold mdim. rewrite map_app, nprod_app. auto. Qed.

Lemma mdim_snoc a l : mdim (a ++ [l]) = (mdim a * length l)%nat.
Proof. rewrite mdim_app. f_equal. unfold mdim, nprod; simpl; lia. Qed.

Lemma mword_snoc lss l n :
  mword (lss ++ [l]) n = mword lss (n / length l) ++ [nth (n mod length l) l 0%Z].
Proof. unfold mword. rewrite rev_app_distr. reflexivity. Qed.

Lemma mword_length lss n : length (mword lss n) = length lss.
Proof.
  revert n; induction lss as [|l lss IH] using rev_ind; intros; auto.
  rewrite mword_snoc, !app_length, IH. auto.
Qed.

Lemma combine_snoc {A B} (a : list A) (b : list B) x y :
  length a = length b -> combine (a ++ [x]) (b ++ [y]) = combine a b ++ [(x, y)].
Proof.
  revert b; induction a; destruct b; simpl; intros; try discriminate; auto.
  f_equal. apply IHa. lia.
Qed.

Lemma mrank_snoc lss l w v : length w = length lss ->
  mrank (lss ++ [l]) (w ++ [v]) = (mrank lss w * length l + pos_in l v)%nat.
Proof.
  intros H. unfold mrank. rewrite combine_snoc by auto. rewrite fold_left_app. auto.
Qed.

Lemma is_mword_length lss w : is_mword lss w -> length w = length lss.
Proof. apply Forall2_length. Qed.

Lemma is_mword_snoc lss l w v :
  is_mword (lss ++ [l]) (w ++ [v]) <-> is_mword lss w /\ In v l.
Proof.
  unfold is_mword. split.
  - intros H. pose proof (Forall2_length _ _ _ H) as HL. rewrite !app_length in HL. simpl in HL.
    apply Forall2_app_inv_r in H. destruct H as (w1 & w2 & H1 & H2 & E).
    inversion H2; subst. inversion H5; subst. apply app_inj_tail in E. destruct E; subst. auto.
  - intros [H1 H2]. apply Forall2_app; auto.
Qed.

Lemma is_mword_snoc_inv lss l w :
  is_mword (lss ++ [l]) w -> exists w' v, w = w' ++ [v] /\ is_mword lss w' /\ In v l.
Proof.
  intros H. destruct w as [|v w'] using rev_ind.
  - apply is_mword_length in H. rewrite app_length in H. simpl in H. lia.
  - clear IHw'. exists w', v. split; auto. apply is_mword_snoc; auto.
Qed.

Lemma mword_is lss n : (n < mdim lss)%nat -> is_mword lss (mword lss n).
Proof.
  revert n; induction lss as [|l lss IH] using rev_ind; intros n Hn.
  - constructor.
  - rewrite mdim_snoc in Hn. assert (length l <> 0)%nat by nia.
    rewrite mword_snoc. apply is_mword_snoc. split.
    + apply IH. apply Nat.div_lt_upper_bound; auto. lia.
    + apply nth_In. apply Nat.mod_upper_bound; auto.
Qed.

Lemma mrank_lt lss w : is_mword lss w -> (mrank lss w < mdim lss)%nat.
Proof.
  revert w; induction lss as [|l lss IH] using rev_ind; intros w H.
  - inversion H; subst. unfold mrank, mdim, nprod; simpl; lia.
  - apply is_mword_snoc_inv in H. destruct H as (w' & v & -> & H & Hv).
    rewrite mrank_snoc by (apply is_mword_length; auto). rewrite mdim_snoc.
    apply IH in H. pose proof (pos_in_lt _ _ Hv). nia.
Qed.

Lemma mrank_mword lss n :
  Forall (@NoDup Z) lss -> (n < mdim lss)%nat -> mrank lss (mword lss n) = n.
Proof.
  revert n; induction lss as [|l lss IH] using rev_ind; intros n HN Hn.
  - unfold mdim, nprod in Hn; simpl in Hn. assert (n = 0)%nat by lia. subst. auto.
  - apply Forall_app in HN. destruct HN as [HN Hl]. inversion Hl; subst.
    rewrite mdim_snoc in Hn. assert (length l <> 0)%nat by nia.
    rewrite mword_snoc, mrank_snoc by apply mword_length.
    rewrite IH; auto; [|apply Nat.div_lt_upper_bound; auto; lia].
    rewrite nth_pos_in; auto; [|apply Nat.mod_upper_bound; auto].
    pose proof (Nat.div_mod n (length l) H). lia.
Qed.

Lemma mword_mrank lss w : is_mword lss w -> mword lss (mrank lss w) = w.
Proof.
  revert w; induction lss as [|l lss IH] using rev_ind; intros w H.
  - inversion H; subst. auto.
  - apply is_mword_snoc_inv in H. destruct H as (w' & v & -> & H & Hv).
    rewrite mrank_snoc by (apply is_mword_length; auto). rewrite mword_snoc.
    pose proof (pos_in_lt _ _ Hv).
    rewrite Nat.div_add_l by lia. rewrite Nat.div_small by auto. rewrite Nat.add_0_r.
    rewrite IH by auto. f_equal. f_equal.
    rewrite Nat.add_comm, Nat.mod_add by lia. rewrite Nat.mod_small by auto.
    apply pos_in_nth; auto.
Qed.

Lemma mrank_inj lss w w' :
  is_mword lss w -> is_mword lss w' -> mrank lss w = mrank lss w' -> w = w'.
Proof.
  intros H H' E. rewrite <- (mword_mrank _ _ H), <- (mword_mrank _ _ H'). congruence.
Qed.

Lemma mword_zero lss : Forall (fun ls => ls <> []) lss ->
  mword lss 0 = map (fun ls => nth 0 ls 0%Z) lss.
Proof.
  induction lss as [|l lss IH] using rev_ind; auto. intros H.
  apply Forall_app in H. destruct H as [H Hl]. inversion Hl; subst.
  assert (length l <> 0)%nat by (destruct l; simpl; congruence).
  rewrite mword_snoc. rewrite Nat.div_0_l, Nat.mod_0_l by auto.
  rewrite IH, map_app by auto. auto.
Qed.

(** ** number_to_state *)
Lemma mdim_pos_nonempty lss : (0 < mdim lss)%nat <-> Forall (fun ls => ls <> []) lss.
Proof.
  unfold mdim, nprod. induction lss; simpl.
  - split; auto; lia.
  - split.
    + intros H. constructor; [destruct a; simpl in *; [lia|congruence]|]. apply IHlss. nia.
    + intros H. inversion H; subst. apply IHlss in H3. destruct a; [congruence|]. simpl. nia.
Qed.

Lemma firstn_S_snoc {A} (l : list A) k d :
  (k < length l)%nat -> firstn (S k) l = firstn k l ++ [nth k l d].
Proof.
  revert k; induction l; simpl; intros k Hk; [lia|]. destruct k; simpl; auto.
  f_equal. apply IHl. lia.
Qed.

Lemma skipn_upd' {A} (l : list A) k v :
  (k < length l)%nat -> skipn k (upd l k v) = v :: skipn (S k) l.
Proof.
  revert k; induction l; destruct k; simpl; intros; try lia; auto. apply IHl; lia.
Qed.

Lemma firstn_upd' {A} (l : list A) k v : firstn k (upd l k v) = firstn k l.
Proof. revert k; induction l; destruct k; simpl; auto. f_equal; auto. Qed.

Lemma n2s_loop_spec lss k ip out :
  (k <= length lss)%nat -> length out = length lss ->
  (ip < mdim (firstn k lss))%nat ->
  firstn k out = map (fun ls => nth 0 ls 0%Z) (firstn k lss) ->
  n2s_loop lss k ip out = Ok (mword (firstn k lss) ip ++ skipn k out).
Proof.
  revert ip out; induction k; intros ip out Hk Hl Hip Hf.
  - simpl. unfold mdim, nprod in Hip. simpl in Hip. assert (ip = 0)%nat by lia. subst. auto.
  - simpl n2s_loop. destruct (Nat.ltb_spec 0 ip).
    + rewrite (firstn_S_snoc lss k []) in * by lia. rewrite mdim_snoc in Hip.
      set (l := nth k lss []) in *.
      assert (length l <> 0)%nat by nia.
      rewrite IHk; try lia.
      * rewrite mword_snoc. rewrite <- app_assoc. f_equal. f_equal.
        rewrite skipn_upd' by lia. auto.
      * rewrite upd_length. auto.
      * apply Nat.div_lt_upper_bound; auto. lia.
      * rewrite firstn_upd'.
        rewrite (firstn_S_snoc out k 0%Z) in Hf by lia. rewrite map_app in Hf.
        apply app_inj_tail in Hf. tauto.
    + assert (ip = 0)%nat by lia. subst. rewrite mword_zero.
      * rewrite <- Hf. rewrite firstn_skipn. auto.
      * apply mdim_pos_nonempty. lia.
Qed.

Lemma number_to_state_mword lss n :
  (n < mdim lss)%nat -> number_to_state n lss = Ok (mword lss n).
Proof.
  intros H. unfold number_to_state. rewrite n2s_loop_spec; auto.
  - rewrite firstn_all. rewrite skipn_all2 by (rewrite map_length; auto). rewrite app_nil_r. auto.
  - rewrite map_length; auto.
  - rewrite firstn_all. auto.
  - rewrite firstn_map. auto.
Qed.

(** ** xs_index *)
Lemma basis_loop_scale ds b : basis_loop ds b = map (Nat.mul b) (basis_loop ds 1).
Proof.
  revert b. induction ds; intros; simpl; auto. f_equal; [lia|].
  rewrite IHds. rewrite (IHds (a + 0)%nat). rewrite map_map. apply map_ext. intros; nia.
Qed.

Lemma basis_loop_length ds b : length (basis_loop ds b) = length ds.
Proof. revert b; induction ds; simpl; auto. Qed.

Lemma fold_left_add_nat (f : nat -> nat) l a :
  fold_left (fun acc k => acc + f k)%nat l a = (a + list_sum (map f l))%nat.
Proof. revert a; induction l; simpl; intros; [lia|]. rewrite IHl. lia. Qed.

Lemma list_sum_map_mul {A} (f : A -> nat) c l :
  list_sum (map (fun x => c * f x)%nat l) = (c * list_sum (map f l))%nat.
Proof. induction l; simpl; lia. Qed.

Lemma xs_index_sum lss w :
  xs_index lss w =
  list_sum (map (fun k => searchsorted (nth (length lss - k - 1) lss [])
                            (nth (length lss - k - 1) w 0%Z) * nth k (basis_of lss) 0)%nat
                (seq 0 (length lss))).
Proof. unfold xs_index. rewrite fold_left_add_nat. auto. Qed.

Lemma xs_index_snoc lss l w v : length w = length lss ->
  xs_index (lss ++ [l]) (w ++ [v]) = (xs_index lss w * length l + searchsorted l v)%nat.
Proof.
  intros H. rewrite !xs_index_sum. rewrite app_length. simpl length.
  rewrite Nat.add_1_r. cbn [seq]. rewrite <- seq_shift. cbn [map]. rewrite map_map.
  cbn [list_sum fold_right].
  unfold basis_of. rewrite map_app, rev_app_distr. cbn [map rev app basis_loop nth].
  replace (S (length lss) - 0 - 1)%nat with (length lss) by lia.
  rewrite (app_nth2 lss) by lia. rewrite (app_nth2 w) by lia.
  rewrite H, Nat.sub_diag. cbn [nth].
  rewrite Nat.mul_1_r, Nat.mul_1_l.
  rewrite (Nat.mul_comm _ (length l)). rewrite <- list_sum_map_mul.
  fold (list_sum (map (fun x : nat => searchsorted (nth (S (length lss) - S x - 1) (lss ++ [l]) [])
     (nth (S (length lss) - S x - 1) (w ++ [v]) 0%Z) *
      nth x (basis_loop (rev (map (@length Z) lss)) (length l)) 0)%nat (seq 0 (length lss)))).
  rewrite Nat.add_comm. f_equal. f_equal. apply map_ext_in. intros k Hk. apply in_seq in Hk.
  replace (S (length lss) - S k - 1)%nat with (length lss - k - 1)%nat by lia.
  rewrite (app_nth1 lss) by lia. rewrite (app_nth1 w) by lia.
  rewrite basis_loop_scale.
  rewrite nth_indep with (d' := (length l * 0)%nat)
    by (rewrite map_length, basis_loop_length, rev_length, map_length; lia).
  rewrite map_nth. nia.
Qed.

Lemma xs_index_mrank lss w :
  Forall (fun ls => StronglySorted Z.lt ls) lss -> is_mword lss w ->
  xs_index lss w = mrank lss w.
Proof.
  revert w; induction lss as [|l lss IH] using rev_ind; intros w Hs H.
  - auto.
  - apply is_mword_snoc_inv in H. destruct H as (w' & v & -> & H & Hv).
    apply Forall_app in Hs. destruct Hs as [Hs Hl]. inversion Hl; subst.
    rewrite xs_index_snoc, mrank_snoc by (apply is_mword_length; auto).
    rewrite IH by auto. rewrite searchsorted_pos by auto. auto.
Qed.

Lemma mrank_app l1 l2 w1 w2 : length w1 = length l1 -> length w2 = length l2 ->
  mrank (l1 ++ l2) (w1 ++ w2) = (mrank l1 w1 * mdim l2 + mrank l2 w2)%nat.
Proof.
  intros H1. revert w2. induction l2 as [|l l2 IH] using rev_ind; intros w2 H2.
  - destruct w2; [|discriminate]. rewrite !app_nil_r. unfold mdim, nprod, mrank at 3; simpl. lia.
  - destruct w2 as [|v w2] using rev_ind; [rewrite app_length in H2; simpl in H2; lia|].
    clear IHw2. rewrite !app_length in H2. simpl in H2. assert (length w2 = length l2) by lia.
    rewrite !app_assoc. rewrite !mrank_snoc; auto; [|rewrite !app_length; lia].
    rewrite IH by auto. rewrite mdim_snoc. nia.
Qed.

(** ** loc_index, x_sites *)
Lemma loc_index_mrank hs act x : loc_index hs act x = mrank (lss_of hs act) (x_sites x act).
Proof.
  unfold loc_index, mrank, lss_of, x_sites.
  assert (E : combine (map (fun s => nth s hs []) act) (map (fun s => nth s x 0%Z) act)
              = map (fun s => (nth s hs [], nth s x 0%Z)) act)
    by (induction act; simpl; f_equal; auto).
  rewrite E. clear E. generalize 0%nat as a. induction act; simpl; intros; auto.
Qed.

Lemma x_sites_length x act : length (x_sites x act) = length act.
Proof. unfold x_sites. apply map_length. Qed.

Lemma lss_of_length hs act : length (lss_of hs act) = length act.
Proof. unfold lss_of. apply map_length. Qed.

Lemma lss_of_app hs a b : lss_of hs (a ++ b) = lss_of hs a ++ lss_of hs b.
Proof. apply map_app. Qed.
Lemma x_sites_app x a b : x_sites x (a ++ b) = x_sites x a ++ x_sites x b.
Proof. apply map_app. Qed.

Lemma local_dim_mdim hs act : local_dim hs act = mdim (lss_of hs act).
Proof. unfold local_dim, mdim, lss_of, nprod. rewrite map_map. auto. Qed.

Lemma loc_index_app hs a b x :
  loc_index hs (a ++ b) x = (loc_index hs a x * local_dim hs b + loc_index hs b x)%nat.
Proof.
  rewrite !loc_index_mrank, lss_of_app, x_sites_app, local_dim_mdim.
  apply mrank_app; rewrite x_sites_length, lss_of_length; auto.
Qed.

Lemma local_dim_app hs a b : local_dim hs (a ++ b) = (local_dim hs a * local_dim hs b)%nat.
Proof. rewrite !local_dim_mdim, lss_of_app. apply mdim_app. Qed.

Lemma local_dim_perm hs a b : Permutation a b -> local_dim hs a = local_dim hs b.
Proof.
  intros H. unfold local_dim. apply nprod_perm. apply Permutation_map. auto.
Qed.

Lemma configuration_length hs x : configuration hs x -> length x = length hs.
Proof. apply Forall2_length. Qed.

Lemma configuration_nth hs x i :
  configuration hs x -> (i < length hs)%nat -> In (nth i x 0%Z) (nth i hs []).
Proof.
  intros H. revert i. induction H; simpl; intros i Hi; [lia|]. destruct i; auto.
  apply IHForall2. lia.
Qed.

Lemma configuration_iff hs x : configuration hs x <->
  length x = length hs /\ forall i, (i < length hs)%nat -> In (nth i x 0%Z) (nth i hs []).
Proof.
  split.
  - intros H. split; [apply configuration_length; auto|]. intros; apply configuration_nth; auto.
  - intros [HL H]. revert x HL H. unfold configuration.
    induction hs; destruct x; simpl; intros; try discriminate; constructor.
    + apply (H 0%nat). lia.
    + apply IHhs; [lia|]. intros i Hi. apply (H (S i)). lia.
Qed.

Definition sites_ok (hs : list (list Z)) (act : list nat) : Prop :=
  NoDup act /\ forall s, In s act -> (s < length hs)%nat.

Lemma x_sites_mword hs act x :
  configuration hs x -> (forall s, In s act -> (s < length hs)%nat) ->
  is_mword (lss_of hs act) (x_sites x act).
Proof.
  intros Hx Ha. unfold is_mword, lss_of, x_sites.
  induction act; simpl; constructor.
  - apply configuration_nth; auto. apply Ha. simpl; auto.
  - apply IHact. intros; apply Ha; simpl; auto.
Qed.

Lemma lss_sorted hs act : sorted_space hs ->
  (forall s, In s act -> (s < length hs)%nat) ->
  Forall (fun ls => StronglySorted Z.lt ls) (lss_of hs act).
Proof.
  intros Hs Ha. unfold lss_of. rewrite Forall_map. apply Forall_forall. intros s H.
  unfold sorted_space in Hs. rewrite Forall_forall in Hs. apply Hs. apply nth_In. auto.
Qed.

Lemma lss_nodup hs act : sorted_space hs ->
  (forall s, In s act -> (s < length hs)%nat) -> Forall (@NoDup Z) (lss_of hs act).
Proof.
  intros Hs Ha. eapply Forall_impl; [|apply lss_sorted; eauto].
  intros. apply StronglySorted_lt_NoDup; auto.
Qed.

Lemma loc_index_lt hs act x :
  configuration hs x -> (forall s, In s act -> (s < length hs)%nat) ->
  (loc_index hs act x < local_dim hs act)%nat.
Proof.
  intros. rewrite loc_index_mrank, local_dim_mdim. apply mrank_lt. apply x_sites_mword; auto.
Qed.

(** ** put_sites *)
Lemma put_sites_length x act w : length (put_sites x act w) = length x.
Proof.
  unfold put_sites. revert x w. induction act; intros; destruct w; simpl; auto.
  rewrite IHact. apply upd_length.
Qed.

Lemma put_sites_other x act w i : ~ In i act -> nth i (put_sites x act w) 0%Z = nth i x 0%Z.
Proof.
  unfold put_sites. revert x w. induction act; intros x w H; destruct w; simpl; auto.
  rewrite IHact by (intros C; apply H; simpl; auto).
  apply nth_upd_other. intros ->. apply H; simpl; auto.
Qed.

Lemma put_sites_get x act w :
  NoDup act -> (forall s, In s act -> (s < length x)%nat) -> length w = length act ->
  x_sites (put_sites x act w) act = w.
Proof.
  intros H. revert x w. induction H; intros y w Hs Hw; destruct w; try discriminate; auto.
  unfold put_sites. cbn [combine fold_left fst snd x_sites map].
  fold (put_sites (upd y x z) l w). f_equal.
  - rewrite put_sites_other by auto. rewrite nth_upd_same; auto. apply Hs; simpl; auto.
  - apply IHNoDup; [|simpl in Hw; lia]. intros s Hin. rewrite upd_length. apply Hs; simpl; auto.
Qed.

Lemma put_sites_nth_in x act w i :
  NoDup act -> (forall s, In s act -> (s < length x)%nat) -> length w = length act ->
  In i act -> exists k, (k < length act)%nat /\ nth k act 0%nat = i /\
                        nth i (put_sites x act w) 0%Z = nth k w 0%Z.
Proof.
  intros HN Hs Hw Hi. apply (In_nth _ _ 0%nat) in Hi. destruct Hi as (k & Hk & E).
  exists k. split; auto. split; auto.
  pose proof (put_sites_get x act w HN Hs Hw) as G.
  assert (G' : nth k (x_sites (put_sites x act w) act) 0%Z = nth k w 0%Z) by (rewrite G; auto).
  rewrite <- G'. unfold x_sites.
  rewrite nth_indep with (d' := nth 0%nat (put_sites x act w) 0%Z) (l := map _ _)
    by (rewrite map_length; auto).
  rewrite map_nth with (f := fun s => nth s (put_sites x act w) 0%Z). rewrite E. auto.
Qed.

Lemma Forall2_nth' {A B} (R : A -> B -> Prop) l l' da db i :
  Forall2 R l l' -> (i < length l)%nat -> R (nth i l da) (nth i l' db).
Proof.
  intros H; revert i; induction H; simpl; intros i Hi; [lia|]. destruct i; auto.
  apply IHForall2. lia.
Qed.

Lemma put_sites_config hs x act w :
  configuration hs x -> sites_ok hs act -> is_mword (lss_of hs act) w ->
  configuration hs (put_sites x act w).
Proof.
  intros Hx [HN Hs] Hw. pose proof (configuration_length _ _ Hx) as HL.
  apply configuration_iff. split; [rewrite put_sites_length; auto|].
  intros i Hi. destruct (in_dec Nat.eq_dec i act) as [Hin|Hout].
  - pose proof (is_mword_length _ _ Hw) as Hwl. rewrite lss_of_length in Hwl.
    destruct (put_sites_nth_in x act w i HN) as (k & Hk & E & G); auto.
    { intros; rewrite HL; auto. }
    rewrite G. rewrite <- E.
    assert (P : In (nth k w 0%Z) (nth k (lss_of hs act) [])).
    { eapply (Forall2_nth' _ _ _ 0%Z (@nil Z) k) in Hw; [exact Hw|lia]. }
    unfold lss_of in P.
    rewrite nth_indep with (d' := nth 0%nat hs []) (l := map _ _) in P
      by (rewrite map_length; auto).
    rewrite map_nth with (f := fun s => nth s hs []) in P. auto.
  - rewrite put_sites_other by auto. apply configuration_nth; auto.
Qed.

Lemma nth_ext_Z (a b : list Z) :
  length a = length b -> (forall i, (i < length a)%nat -> nth i a 0%Z = nth i b 0%Z) -> a = b.
Proof. intros. apply nth_ext with (d := 0%Z) (d' := 0%Z); auto. Qed.

(** ** same_elsewhere *)
Lemma same_elsewhere_iff act x y :
  same_elsewhere act x y = true <->
  forall i, (i < length x)%nat -> ~ In i act -> nth i x 0%Z = nth i y 0%Z.
Proof.
  unfold same_elsewhere. rewrite forallb_forall. split.
  - intros H i Hi Hn. specialize (H i). rewrite in_seq in H.
    assert (E : existsb (Nat.eqb i) act || (nth i x 0 =? nth i y 0)%Z = true) by (apply H; lia).
    apply orb_true_iff in E. destruct E as [E|E].
    + exfalso. apply Hn. apply nat_mem_in. auto.
    + apply Z.eqb_eq; auto.
  - intros H i Hi. apply in_seq in Hi. apply orb_true_iff.
    destruct (in_dec Nat.eq_dec i act) as [Hin|Hout].
    + left. apply nat_mem_in. auto.
    + right. apply Z.eqb_eq. apply H; auto; lia.
Qed.

Lemma same_elsewhere_refl act x : same_elsewhere act x x = true.
Proof. apply same_elsewhere_iff. auto. Qed.

Lemma same_elsewhere_put x act w : same_elsewhere act x (put_sites x act w) = true.
Proof.
  apply same_elsewhere_iff. intros. rewrite put_sites_other; auto.
Qed.

Lemma same_elsewhere_ext act act' x y :
  (forall s, In s act <-> In s act') -> same_elsewhere act x y = same_elsewhere act' x y.
Proof.
  intros H. apply eq_true_iff_eq. rewrite !same_elsewhere_iff.
  split; intros G i Hi Hn; apply G; auto; rewrite H in *; auto.
Qed.

Lemma put_sites_restore x y act :
  NoDup act -> (forall s, In s act -> (s < length x)%nat) -> length x = length y ->
  same_elsewhere act x y = true -> put_sites x act (x_sites y act) = y.
Proof.
  intros HN Hs HL H. apply nth_ext_Z.
  - rewrite put_sites_length. auto.
  - rewrite put_sites_length. intros i Hi. destruct (in_dec Nat.eq_dec i act) as [Hin|Hout].
    + destruct (put_sites_nth_in x act (x_sites y act) i) as (k & Hk & E & G); auto.
      { apply x_sites_length. }
      rewrite G. unfold x_sites.
      rewrite nth_indep with (d' := nth 0%nat y 0%Z) (l := map _ _) by (rewrite map_length; auto).
      rewrite map_nth with (f := fun s => nth s y 0%Z). rewrite E. auto.
    + rewrite put_sites_other by auto. rewrite same_elsewhere_iff in H. apply H; auto.
Qed.

(** x with the sites [act] replaced by the [j]-th local configuration *)
Definition move (hs : list (list Z)) (act : list nat) (x : list Z) (j : nat) : list Z :=
  put_sites x act (mword (lss_of hs act) j).

Section Move.
Variables (hs : list (list Z)) (act : list nat).
Hypothesis Hs : sorted_space hs.
Hypothesis Ha : sites_ok hs act.

Lemma move_config x j :
  configuration hs x -> (j < local_dim hs act)%nat -> configuration hs (move hs act x j).
Proof.
  intros Hx Hj. apply put_sites_config; auto. apply mword_is. rewrite <- local_dim_mdim. auto.
Qed.

Lemma move_index x j :
  configuration hs x -> (j < local_dim hs act)%nat -> loc_index hs act (move hs act x j) = j.
Proof.
  intros Hx Hj. destruct Ha as [HN HI]. rewrite loc_index_mrank. unfold move.
  rewrite put_sites_get; auto.
  - apply mrank_mword; [apply lss_nodup; auto|]. rewrite <- local_dim_mdim. auto.
  - intros. rewrite (configuration_length _ _ Hx). auto.
  - rewrite mword_length, lss_of_length. auto.
Qed.

Lemma move_same x j : same_elsewhere act x (move hs act x j) = true.
Proof. apply same_elsewhere_put. Qed.

Lemma move_back x y :
  configuration hs x -> configuration hs y -> same_elsewhere act x y = true ->
  move hs act x (loc_index hs act y) = y.
Proof.
  intros Hx Hy E. destruct Ha as [HN HI]. unfold move. rewrite loc_index_mrank.
  rewrite mword_mrank by (apply x_sites_mword; auto).
  apply put_sites_restore; auto.
  - intros. rewrite (configuration_length _ _ Hx). auto.
  - rewrite (configuration_length _ _ Hx), (configuration_length _ _ Hy). auto.
Qed.

Lemma index_inj x y :
  configuration hs x -> configuration hs y -> same_elsewhere act x y = true ->
  loc_index hs act x = loc_index hs act y -> x = y.
Proof.
  intros Hx Hy E EI.
  rewrite <- (move_back x y Hx Hy E). rewrite <- EI.
  symmetry. apply move_back; auto. apply same_elsewhere_refl.
Qed.

Lemma move_inj x i j :
  configuration hs x -> (i < local_dim hs act)%nat -> (j < local_dim hs act)%nat ->
  move hs act x i = move hs act x j -> i = j.
Proof.
  intros Hx Hi Hj E. rewrite <- (move_index x i), <- (move_index x j) by auto. congruence.
Qed.

End Move.

(** ** all_configs *)
Lemma all_configs_in hs x : In x (all_configs hs) <-> configuration hs x.
Proof.
  unfold configuration. revert x. induction hs; simpl; intros x.
  - split; [intros [<-|[]]; constructor|]. intros H; inversion H; auto.
  - rewrite in_flat_map. split.
    + intros (v & Hv & H). apply in_map_iff in H. destruct H as (y & <- & Hy).
      constructor; auto. apply IHhs; auto.
    + intros H. inversion H; subst. exists x0. split; auto. apply in_map. apply IHhs; auto.
Qed.

Lemma NoDup_flat_map {A B} (f : A -> list B) l :
  NoDup l -> (forall a, In a l -> NoDup (f a)) ->
  (forall a b y, In a l -> In b l -> In y (f a) -> In y (f b) -> a = b) ->
  NoDup (flat_map f l).
Proof.
  induction 1; simpl; intros H1 H2; [constructor|].
  assert (P : forall y, In y (f x) -> ~ In y (flat_map f l)).
  { intros y Hy Hin. apply in_flat_map in Hin. destruct Hin as (b & Hb & Hyb).
    assert (x = b) by (eapply H2; eauto). subst; auto. }
  assert (N1 : NoDup (f x)) by (apply H1; auto).
  assert (N2 : NoDup (flat_map f l)).
  { apply IHNoDup; intros; [apply H1; auto|eapply H2; eauto]. }
  clear -P N1 N2. induction N1; simpl; auto. constructor.
  - intros Hin. apply in_app_iff in Hin. destruct Hin; auto. eapply P; simpl; eauto.
  - apply IHN1. intros; apply P; simpl; auto.
Qed.

Lemma all_configs_nodup hs : sorted_space hs -> NoDup (all_configs hs).
Proof.
  intros H. induction H; simpl.
  - constructor; auto. constructor.
  - apply NoDup_flat_map.
    + apply StronglySorted_lt_NoDup; auto.
    + intros a _. apply FinFun.Injective_map_NoDup; auto. intros u v E; inversion E; auto.
    + intros a b y _ _ Ha Hb. apply in_map_iff in Ha, Hb.
      destruct Ha as (? & <- & _), Hb as (? & E & _). inversion E; auto.
Qed.

(** ** sums in the coefficient ring *)
Section Sums.
Variable S : scalars.
Hypothesis L : scalar_laws S.
Notation K := (K S).
Notation "0" := (k0 S).
Notation "1" := (k1 S).
Infix "+" := (kadd S).
Infix "*" := (kmul S).

Add Ring Kring : (k_ring S L).

Lemma ksum_sum l : ksum S l = sum S l.
Proof. reflexivity. Qed.

Lemma sum_app a b : sum S (a ++ b) = sum S a + sum S b.
Proof. unfold sum. induction a; simpl; [ring|]. rewrite IHa. ring. Qed.

Lemma sum_concat ll : sum S (concat ll) = sum S (map (sum S) ll).
Proof. induction ll; simpl; auto. rewrite sum_app, IHll. auto. Qed.

Lemma sum_perm a b : Permutation a b -> sum S a = sum S b.
Proof.
  unfold sum. induction 1; simpl; auto; try congruence; try ring.
Qed.

Lemma sum_ext {A} (f g : A -> K) l :
  (forall a, In a l -> f a = g a) -> sum S (map f l) = sum S (map g l).
Proof. intros H. f_equal. apply map_ext_in. auto. Qed.

Lemma sum_zero {A} (f : A -> K) l :
  (forall a, In a l -> f a = 0) -> sum S (map f l) = 0.
Proof.
  unfold sum. induction l; simpl; intros H; auto. rewrite H by auto.
  rewrite IHl by auto. ring.
Qed.

Lemma sum_add {A} (f g : A -> K) l :
  sum S (map (fun a => f a + g a) l) = sum S (map f l) + sum S (map g l).
Proof. unfold sum. induction l; simpl; [ring|]. rewrite IHl. ring. Qed.

Lemma sum_mul_l {A} (f : A -> K) c l :
  sum S (map (fun a => c * f a) l) = c * sum S (map f l).
Proof. unfold sum. induction l; simpl; [ring|]. rewrite IHl. ring. Qed.

Lemma sum_mul_r {A} (f : A -> K) c l :
  sum S (map (fun a => f a * c) l) = sum S (map f l) * c.
Proof. unfold sum. induction l; simpl; [ring|]. rewrite IHl. ring. Qed.

Lemma sum_swap {A B} (f : A -> B -> K) la lb :
  sum S (map (fun a => sum S (map (f a) lb)) la)
  = sum S (map (fun b => sum S (map (fun a => f a b) la)) lb).
Proof.
  induction la; simpl.
  - rewrite sum_zero; auto.
  - rewrite IHla. rewrite <- sum_add. auto.
Qed.

Lemma sum_map_filter {A} (p : A -> bool) (f : A -> K) l :
  sum S (map f (filter p l)) = sum S (map (fun a => if p a then f a else 0) l).
Proof.
  unfold sum. induction l; simpl; auto. destruct (p a); simpl; rewrite IHl; [auto|ring].
Qed.

Lemma sum_support {A} (dec : forall a b : A, {a = b} + {a <> b}) (f : A -> K) l1 l2 :
  NoDup l1 -> NoDup l2 -> (forall a, In a l2 -> In a l1) ->
  (forall a, In a l1 -> ~ In a l2 -> f a = 0) ->
  sum S (map f l1) = sum S (map f l2).
Proof.
  intros N1 N2 Hin Hz.
  set (p := fun a => if in_dec dec a l2 then true else false).
  transitivity (sum S (map f (filter p l1))).
  - rewrite sum_map_filter. apply sum_ext. intros a Ha. unfold p.
    destruct (in_dec dec a l2); auto.
  - apply sum_perm. apply Permutation_map. apply NoDup_Permutation; auto.
    + apply NoDup_filter; auto.
    + intros a. rewrite filter_In. unfold p. destruct (in_dec dec a l2); split; auto; try tauto.
      intros [_ H]; discriminate.
Qed.

Lemma sum_single {A} (dec : forall a b : A, {a = b} + {a <> b}) (f : A -> K) l a :
  NoDup l -> In a l -> (forall b, In b l -> b <> a -> f b = 0) ->
  sum S (map f l) = f a.
Proof.
  intros N Ha Hz. rewrite (sum_support dec f l [a]); auto.
  - unfold sum; simpl. ring.
  - constructor; auto. constructor.
  - intros b [<-|[]]; auto.
  - intros b Hb Hn. apply Hz; auto. intros ->. apply Hn; simpl; auto.
Qed.

(** sum over all configurations of a function supported on the moves of [x] *)
Lemma sum_configs hs act x (f : list Z -> K) :
  sorted_space hs -> sites_ok hs act -> configuration hs x ->
  (forall z, configuration hs z -> same_elsewhere act x z = false -> f z = 0) ->
  sum S (map f (all_configs hs)) =
  sum S (map (fun j => f (move hs act x j)) (seq 0 (local_dim hs act))).
Proof.
  intros Hs Ha Hx Hz.
  rewrite (sum_support (list_eq_dec Z.eq_dec) f (all_configs hs)
             (map (move hs act x) (seq 0 (local_dim hs act)))).
  - rewrite map_map. auto.
  - apply all_configs_nodup; auto.
  - apply NoDup_nth with (d := []). intros i j Hi Hj. rewrite map_length, seq_length in *.
    rewrite (nth_indep (map (move hs act x) (seq 0 (local_dim hs act))) [] (move hs act x 0%nat) (n := i))
      by (rewrite map_length, seq_length; auto).
    rewrite (nth_indep (map (move hs act x) (seq 0 (local_dim hs act))) [] (move hs act x 0%nat) (n := j))
      by (rewrite map_length, seq_length; auto).
    rewrite !map_nth, !seq_nth by auto. simpl. apply move_inj; auto.
  - intros z Hin. apply in_map_iff in Hin. destruct Hin as (j & <- & Hj). apply in_seq in Hj.
    apply all_configs_in. apply move_config; auto. lia.
  - intros z Hin Hn. apply all_configs_in in Hin. apply Hz; auto.
    destruct (same_elsewhere act x z) eqn:E; auto. exfalso. apply Hn.
    apply in_map_iff. exists (loc_index hs act z). split; [apply move_back; auto|].
    apply in_seq. destruct Ha as [_ Ha]. pose proof (loc_index_lt hs act z Hin Ha). lia.
Qed.

(** ** matrices *)
Lemma entry_mget m i j : entry S m i j = mget S m i j.
Proof. reflexivity. Qed.

Lemma mbuild_get n m f i j :
  (i < n)%nat -> (j < m)%nat -> mget S (mbuild S n m f) i j = f i j.
Proof.
  intros Hi Hj. unfold mget, mbuild.
  rewrite nth_indep with (d' := map (f 0%nat) (seq 0 m)) by (rewrite map_length, seq_length; auto).
  rewrite map_nth with (f := fun i => map (f i) (seq 0 m)). rewrite seq_nth by auto.
  rewrite nth_indep with (d' := f i 0%nat) by (rewrite map_length, seq_length; auto).
  cbn [Nat.add]. rewrite map_nth with (f := f i). rewrite seq_nth by auto. auto.
Qed.

Lemma mbuild_square d f : square S (mbuild S d d f) d.
Proof.
  unfold mbuild. split; [rewrite map_length, seq_length; auto|].
  apply Forall_map. apply Forall_forall. intros. rewrite map_length, seq_length. auto.
Qed.

Lemma square_nrows m d : square S m d -> nrows S m = d.
Proof. intros [H _]; auto. Qed.

Lemma square_ncols m d : square S m d -> (0 < d)%nat -> ncols S m = d.
Proof.
  intros [H1 H2] Hd. unfold ncols. destruct m; simpl in *; [lia|]. inversion H2; auto.
Qed.

Lemma square_ext m m' d : square S m d -> square S m' d ->
  (forall i j, (i < d)%nat -> (j < d)%nat -> mget S m i j = mget S m' i j) -> m = m'.
Proof.
  intros [H1 H2] [H3 H4] E. apply nth_ext with (d := []) (d' := []); [congruence|].
  intros i Hi. rewrite Forall_forall in H2, H4.
  assert (R1 : length (nth i m []) = d) by (apply H2, nth_In; auto).
  assert (R2 : length (nth i m' []) = d) by (apply H4, nth_In; lia).
  apply nth_ext with (d := 0) (d' := 0); [congruence|].
  intros j Hj. apply E; lia.
Qed.

End Sums.
