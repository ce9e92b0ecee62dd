(** * Proofs about the numpy Jastrow machine: values, derivatives, parameters *)
From Coq Require Import List Arith ZArith Bool Reals Lia Lra Permutation.
From Verif Require Import Base Rings ARNN_Model ARNN_Proofs ToArray_Model Estim_Model Estim_Proofs Group_Spec Symm_Spec Ansatz_Model Ansatz_Proofs LegRbm_Model LegRbm_Spec
  LegRbm_Proofs LegRbm_Sym Little_Char LegJas_Model LegJas_Spec LegJas_Table.
Import ListNotations.
Open Scope R_scope.
Open Scope nat_scope.
Open Scope list_scope.

(** ** Sums over pairs *)
Lemma radd_zero_r (z : cpx) : radd cC z (0, 0)%R = z.
Proof. destruct z. cbn. f_equal; ring. Qed.
Lemma radd_zero_l (z : cpx) : radd cC (0, 0)%R z = z.
Proof. destruct z. cbn. f_equal; ring. Qed.
Lemma tail_sum (g : nat -> cpx) n i : i < n -> lsum cC (map g (seq (S i) (n - S i))) = fsum cC n (fun j => if i <? j then g j else (0, 0)%R).
Proof.
  intros H. rewrite (fsum_lsum cC cC_laws).
  replace (seq 0 n) with (seq 0 (S i) ++ seq (S i) (n - S i)) by (rewrite <- seq_app; f_equal; lia).
  rewrite map_app, (lsum_app cC cC_laws).
  rewrite (lsum_ext (fun j => if i <? j then g j else (0, 0)%R) (fun _ => (0, 0)%R) (seq 0 (S i))).
  - rewrite (lsum_ext (fun j => if i <? j then g j else (0, 0)%R) g (seq (S i) (n - S i))).
    + assert (Z : forall l : list nat, lsum cC (map (fun _ => (0, 0)%R) l) = (0, 0)%R).
      { induction l as [|a l IH]; [reflexivity|]. cbn [map lsum]. rewrite IH. apply radd_zero_l. }
      rewrite Z. symmetry. apply radd_zero_l.
    + intros j Hj. apply in_seq in Hj. destruct (Nat.ltb_spec i j); [reflexivity|lia].
  - intros j Hj. apply in_seq in Hj. destruct (Nat.ltb_spec i j); [lia|reflexivity].
Qed.
Lemma lsum_pairs (f : nat -> nat -> cpx) n : lsum cC (map (fun p => f (fst p) (snd p)) (pairs n)) = pair_sum n f.
Proof.
  unfold pair_sum, pairs. rewrite (fsum_lsum cC cC_laws).
  rewrite <- (lsum_ext (fun i => lsum cC (map (f i) (seq (S i) (n - S i)))) _ (seq 0 n)).
  - induction (seq 0 n) as [|i l IH]; [reflexivity|]. cbn [flat_map map lsum]. rewrite map_app, (lsum_app cC cC_laws), IH. f_equal.
    rewrite map_map. reflexivity.
  - intros i Hi. apply in_seq in Hi. apply tail_sum. lia.
Qed.
Lemma pair_sum_ext f g n : (forall i j, i < j < n -> f i j = g i j) -> pair_sum n f = pair_sum n g.
Proof.
  intros H. unfold pair_sum. apply (fsum_ext cC). intros i Hi. apply (fsum_ext cC). intros j Hj.
  destruct (Nat.ltb_spec i j); [apply H; lia|reflexivity].
Qed.

(** ** The table in general *)
Lemma gen_symm_total n rows : exists c k, gen_symm n rows = Ok (c, k) /\ forall i j, i < j < n -> c i j < k.
Proof.
  unfold gen_symm. set (W := mark rows (pairs n) 0 LegJas_Model.blank).
  destruct (keys_spec W (pairs n) [] (NoDup_nil _)) as [KN KI]. set (d := keys W (pairs n) []) in *.
  destruct (rename_spec d (pairs n) W (nodup_pairs n) (ordered_pairs n)) as (c & ER & HC & _).
  { intros i j H. apply KI. right. exists i, j. auto. }
  rewrite ER. cbn [bind]. exists c, (length d). split; [reflexivity|]. intros i j H. apply in_pairs in H. destruct (HC i j H) as [E1 _].
  destruct (position_in (W i j) d) as (v & EV & LV & _); [apply KI; right; exists i, j; auto|]. rewrite EV in E1. inversion E1. lia.
Qed.

Definition jwf (n : nat) (vis : bool) (d : ptype) (m : jmach) : Prop :=
  j_n m = n /\ j_type m = d /\ (forall i j, i < j < n -> j_map m i j < j_nsym m) /\ length (j_J m) = j_nsym m /\
  match j_a m with Some a => vis = true /\ length a = n | None => vis = false end.
Lemma construct_wf n vis am d junk m : construct n vis am d junk = Ok m ->
  jwf n vis d m /\ 2 <= n /\
  match am with
  | ANone => j_map m = fst (plain_table n) /\ j_nsym m = n * (n - 1) / 2
  | ATable rows => gen_symm n rows = Ok (j_map m, j_nsym m) /\ forallb (fun r => length r =? n) rows && (0 <? length rows) = true
  | _ => False
  end.
Proof.
  unfold construct. intros H. destruct d; [| |discriminate].
  all: destruct (Nat.ltb_spec n 2) as [L|L]; [discriminate|].
  all: destruct am as [| |rows|]; cbn [bind] in H; try discriminate.
  1, 3: destruct (plain_table n) as [W k] eqn:EP; inversion H; subst; unfold jwf; cbn [j_n j_type j_map j_nsym j_a j_J fst];
    assert (EK : k = n * (n - 1) / 2) by (unfold plain_table in EP; inversion EP; reflexivity); subst k;
    assert (EW : W = fst (plain_table n)) by (rewrite EP; reflexivity);
    (repeat split; auto; [intros i j HI; rewrite EW; rewrite (proj1 (plain_rank n i j HI)); apply rank_lt; exact HI
     |apply repeat_length|destruct vis; [split; [reflexivity|rewrite map_length; apply seq_length]|reflexivity]]).
  all: destruct (negb (forallb (fun r => length r =? n) rows && (0 <? length rows))) eqn:EB; [discriminate|];
    destruct (gen_symm n rows) as [[W k]|e] eqn:EG; cbn [bind] in H; [|discriminate]; inversion H; subst; unfold jwf; cbn [j_n j_type j_map j_nsym j_a j_J fst];
    destruct (gen_symm_total n rows) as (c & k' & EG' & HB); rewrite EG in EG'; inversion EG'; subst;
    (repeat split; auto; [apply repeat_length|destruct vis; [split; [reflexivity|rewrite map_length; apply seq_length]|reflexivity]|apply negb_false_iff; exact EB]).
Qed.
Lemma wf_par n vis d m : jwf n vis d m -> jn_par m = shift vis n + j_nsym m.
Proof. intros (_ & _ & _ & _ & HA). unfold jn_par, shift. destruct (j_a m) as [a|]; [destruct HA as [-> ->]|rewrite HA]; lia. Qed.
Lemma set_wf n vis d m p : jwf n vis d m -> Forall (holds d) p -> length p = shift vis n + j_nsym m ->
  exists m', jset m p = Ok m' /\ jwf n vis d m' /\ j_map m' = j_map m /\ j_nsym m' = j_nsym m /\ jget m' = p /\
    j_J m' = skipn (shift vis n) p /\ j_a m' = (if vis then Some (firstn n p) else None).
Proof.
  intros W H L. pose proof (wf_par n vis d m W) as HP. destruct W as (W1 & W2 & W3 & W4 & W5).
  unfold jset. rewrite HP, L, Nat.eqb_refl. cbn [negb]. rewrite W2, (cast_map d p H).
  eexists. split; [reflexivity|]. unfold jwf, jget. cbn [j_n j_type j_map j_nsym j_a j_J].
  assert (SK : match j_a m with Some a => length a | None => 0 end = shift vis n).
  { unfold shift. destruct (j_a m) as [a|]; [destruct W5 as [-> ->]|rewrite W5]; reflexivity. }
  rewrite SK. unfold shift in *. destruct (j_a m) as [a|].
  - destruct W5 as [-> La]. repeat split; auto; [rewrite skipn_length; lia|apply firstn_length_le; lia|apply firstn_skipn].
  - subst vis. repeat split; auto.
Qed.
Lemma set_wrong m p : length p <> jn_par m -> jset m p = Err ValueError.
Proof. intros H. unfold jset. apply Nat.eqb_neq in H. rewrite H. reflexivity. Qed.

(** ** Values *)
Lemma at_par p k i : at_ (skipn k p) i = par p (k + i).
Proof. unfold at_, par. apply nth_skipn'. Qed.
Lemma row_value n vis d m p m' s : jwf n vis d m -> jset m p = Ok m' -> Forall (holds d) p ->
  radd cC (two_body m' n s) (match j_a m' with Some a => dot n (row_fn s) (at_ a) | None => (0, 0)%R end) =
  jastrow_log n (fun i j => par p (shift vis n + j_map m i j)) (bias_of vis p) (par s).
Proof.
  intros W HS H.
  assert (L : length p = shift vis n + j_nsym m).
  { rewrite <- (wf_par n vis d m W). destruct (Nat.eq_dec (length p) (jn_par m)) as [E|E]; [exact E|]. rewrite (set_wrong m p E) in HS. discriminate. }
  destruct (set_wf n vis d m p W H L) as (m'' & E & W' & EM & EN & _ & EJ & EA). rewrite HS in E. inversion E; subst m''. clear E.
  unfold jastrow_log, two_body. f_equal.
  - rewrite (lsum_pairs (fun i j => rmul cC (rmul cC (at_ s i) (at_ (j_J m') (j_map m' i j))) (at_ s j)) n).
    apply pair_sum_ext. intros i j Hij. rewrite EJ, EM, at_par. reflexivity.
  - rewrite EA. unfold bias_of, dot. destruct vis.
    + apply (fsum_ext cC). intros i Hi. unfold row_fn, at_, par.
      assert (EF : nth i (firstn n p) (0, 0)%R = nth i p (0, 0)%R).
      { rewrite <- (firstn_skipn n p) at 2. rewrite app_nth1; [reflexivity|]. rewrite firstn_length_le; [exact Hi|]. unfold shift in L. lia. }
      rewrite EF. rg.
    + symmetry. apply (fsum_zero cC cC_laws). intros i Hi. cpx; ring.
Qed.
Lemma rows_cast n d x : rows_ok n d x -> map (map (cast d)) x = x.
Proof. intros H. apply cast_rows. eapply Forall_impl; [|exact H]. intros s Hs. apply Hs. Qed.
Lemma value n vis d m p m' x out : jwf n vis d m -> jset m p = Ok m' -> Forall (holds d) p -> rows_ok n d x ->
  jlog_val m' n x out = Ok (map (fun s => jastrow_log n (fun i j => par p (shift vis n + j_map m i j)) (bias_of vis p) (par s)) x,
    if out then Some (map (fun s => jastrow_log n (fun i j => par p (shift vis n + j_map m i j)) (fun _ => (0, 0)%R) (par s)) x) else None).
Proof.
  intros W HS H HX.
  assert (L : length p = shift vis n + j_nsym m).
  { rewrite <- (wf_par n vis d m W). destruct (Nat.eq_dec (length p) (jn_par m)) as [E|E]; [exact E|]. rewrite (set_wrong m p E) in HS. discriminate. }
  destruct (set_wf n vis d m p W H L) as (m'' & E & W' & EM & EN & _ & EJ & EA). rewrite HS in E. inversion E; subst m''. clear E.
  assert (HT : map (two_body m' n) x = map (fun s => jastrow_log n (fun i j => par p (shift vis n + j_map m i j)) (fun _ => (0, 0)%R) (par s)) x).
  { apply map_ext. intros s. unfold jastrow_log, two_body.
    rewrite (lsum_pairs (fun i j => rmul cC (rmul cC (at_ s i) (at_ (j_J m') (j_map m' i j))) (at_ s j)) n).
    rewrite (fsum_zero cC cC_laws n (fun i => rmul cC (0, 0)%R (par s i))) by (intros; cpx; ring).
    change (r0 cC) with ((0, 0)%R : cpx). rewrite radd_zero_r.
    apply pair_sum_ext. intros i j Hij. rewrite EJ, EM, at_par. reflexivity. }
  unfold jlog_val. destruct W' as (W1 & W2 & W3 & W4 & W5). rewrite W2, (rows_cast n d x HX), W1, Nat.ltb_irrefl. cbn [andb].
  pose proof (fun s => row_value n vis d m p m' s W HS H) as RV.
  rewrite HT. destruct (j_a m') as [a|].
  - destruct W5 as [-> La]. rewrite La, Nat.eqb_refl. cbn [negb]. f_equal. f_equal. apply map_ext. intros s. apply RV.
  - f_equal. f_equal. rewrite <- HT. apply map_ext. intros s. rewrite <- RV. symmetry. apply radd_zero_r.
Qed.

(** ** Derivatives *)
Lemma by_class {A} (a : A -> cpx) (c : A -> nat) (J : nat -> cpx) k : forall l, (forall p, In p l -> c p < k) ->
  lsum cC (map (fun p => rmul cC (J (c p)) (a p)) l) = fsum cC k (fun q => rmul cC (J q) (lsum cC (map a (filter (fun p => c p =? q) l)))).
Proof.
  induction l as [|x l IH]; intros H; cbn [map lsum filter].
  - symmetry. apply (fsum_zero cC cC_laws). intros; cbn [lsum]. cpx; ring.
  - rewrite IH by (intros; apply H; right; assumption). symmetry.
    rewrite (fsum_ext cC k _ (fun q => radd cC (if q =? c x then rmul cC (J (c x)) (a x) else r0 cC) (rmul cC (J q) (lsum cC (map a (filter (fun p => c p =? q) l)))))).
    + rewrite (fsum_add cC cC_laws). f_equal.
      apply (fsum_delta cC cC_laws k (fun _ => rmul cC (J (c x)) (a x)) (c x)). apply H. left. reflexivity.
    + intros q Hq. rewrite (Nat.eqb_sym (c x) q). destruct (q =? c x) eqn:E.
      * apply Nat.eqb_eq in E. subst q. cbn [map lsum]. rg.
      * rg.
Qed.
Lemma der_length n vis d m s : jwf n vis d m -> length (jder_row m n s) = shift vis n + j_nsym m.
Proof.
  intros (_ & _ & _ & _ & HA). unfold jder_row, shift. rewrite app_length, map_length, seq_length.
  destruct (j_a m); [destruct HA as [-> _]; rewrite map_length, seq_length|subst vis]; reflexivity.
Qed.
Lemma linear_row n vis d m p s : jwf n vis d m -> length p = shift vis n + j_nsym m ->
  jastrow_log n (fun i j => par p (shift vis n + j_map m i j)) (bias_of vis p) (par s) =
  fsum cC (shift vis n + j_nsym m) (fun k => rmul cC (par p k) (par (jder_row m n s) k)).
Proof.
  intros (W1 & W2 & W3 & W4 & W5) L. unfold jastrow_log.
  assert (TB : pair_sum n (fun i j => rmul cC (rmul cC (par s i) (par p (shift vis n + j_map m i j))) (par s j)) =
    fsum cC (j_nsym m) (fun k => rmul cC (par p (shift vis n + k)) (par (jder_row m n s) (shift vis n + k)))).
  { rewrite <- (lsum_pairs (fun i j => rmul cC (rmul cC (par s i) (par p (shift vis n + j_map m i j))) (par s j)) n).
    rewrite (lsum_ext _ (fun q => rmul cC ((fun k => par p (shift vis n + k)) ((fun q => j_map m (fst q) (snd q)) q)) ((fun q => rmul cC (par s (fst q)) (par s (snd q))) q))).
    2:{ intros q _. cbv beta. rg. }
    rewrite (by_class (fun q => rmul cC (par s (fst q)) (par s (snd q))) (fun q => j_map m (fst q) (snd q)) (fun k => par p (shift vis n + k)) (j_nsym m)).
    2:{ intros [i j] Hq. apply in_pairs in Hq. apply W3. exact Hq. }
    apply (fsum_ext cC). intros k Hk. f_equal. unfold jder_row, par. unfold shift.
    destruct (j_a m) as [a|].
    - destruct W5 as [-> _]. rewrite app_nth2 by (rewrite map_length, seq_length; lia). rewrite map_length, seq_length.
      replace (n + k - n) with k by lia. rewrite nth_map_seq by exact Hk. reflexivity.
    - subst vis. cbn [app]. rewrite Nat.add_0_l. rewrite nth_map_seq by exact Hk. reflexivity. }
  rewrite TB. clear TB.
  assert (SP : forall a b (f : nat -> cpx), fsum cC (a + b) f = radd cC (fsum cC a f) (fsum cC b (fun k => f (a + k)))).
  { intros a b f. rewrite !(fsum_lsum cC cC_laws). rewrite seq_app, map_app, (lsum_app cC cC_laws). f_equal. f_equal.
    rewrite Nat.add_0_l. clear. revert a. induction b; intros a; [reflexivity|]. rewrite !seq_S, !map_app. rewrite IHb. reflexivity. }
  rewrite SP. rewrite (Radd_comm (rlaws_ring cC_laws)) || idtac.
  assert (BI : fsum cC n (fun i => rmul cC (bias_of vis p i) (par s i)) = fsum cC (shift vis n) (fun k => rmul cC (par p k) (par (jder_row m n s) k))).
  { unfold bias_of, shift. destruct (j_a m) as [a|] eqn:EA.
    - destruct W5 as [-> _]. apply (fsum_ext cC). intros i Hi. f_equal. unfold jder_row, par. rewrite EA.
      rewrite app_nth1 by (rewrite map_length, seq_length; exact Hi). rewrite nth_map_seq by exact Hi. reflexivity.
    - subst vis. apply (fsum_zero cC cC_laws). intros; cpx; ring. }
  rewrite BI. rg.
Qed.
Lemma der_log_set n vis d m p m' s : jwf n vis d m -> jset m p = Ok m' -> jder_row m' n s = jder_row m n s /\ j_type m' = j_type m.
Proof.
  intros W HS. unfold jset in HS. destruct (negb (length p =? jn_par m)); [discriminate|]. inversion HS; subst. unfold jder_row. cbn [j_map j_nsym j_a j_type].
  split; [|reflexivity]. destruct (j_a m); reflexivity.
Qed.

(** ** Symmetry *)
Lemma double_pair n (f : nat -> nat -> cpx) : (forall i j, i < n -> j < n -> f i j = f j i) ->
  radd cC (pair_sum n f) (pair_sum n f) = fsum cC n (fun i => fsum cC n (fun j => if i =? j then (0, 0)%R else f i j)).
Proof.
  intros H. unfold pair_sum at 2. rewrite (fsum_swap cC cC_laws). unfold pair_sum.
  rewrite <- (fsum_add cC cC_laws). apply (fsum_ext cC). intros i Hi. rewrite <- (fsum_add cC cC_laws). apply (fsum_ext cC). intros j Hj.
  destruct (Nat.ltb_spec i j), (Nat.ltb_spec j i), (Nat.eqb_spec i j); try lia; try (subst; cpx; ring).
  rewrite (H j i Hj Hi). apply radd_zero_l.
Qed.
Lemma half (a b : cpx) : radd cC a a = radd cC b b -> a = b.
Proof. destruct a, b. cbn. intros E. inversion E. f_equal; lra. Qed.
Lemma pair_sum_perm n (f : nat -> nat -> cpx) g : (forall i j, i < n -> j < n -> f i j = f j i) ->
  (forall i, i < n -> g i < n) -> (forall i j, i < n -> j < n -> g i = g j -> i = j) ->
  pair_sum n (fun i j => f (g i) (g j)) = pair_sum n f.
Proof.
  intros H G1 G2. apply half. rewrite (double_pair n f H). rewrite (double_pair n (fun i j => f (g i) (g j))) by (intros; apply H; auto).
  rewrite <- (fsum_perm cC cC_laws n g (fun i => fsum cC n (fun j => if i =? j then (0, 0)%R else f i j)) G1 G2).
  apply (fsum_ext cC). intros i Hi.
  rewrite <- (fsum_perm cC cC_laws n g (fun j => if g i =? j then (0, 0)%R else f (g i) j) G1 G2).
  apply (fsum_ext cC). intros j Hj. destruct (Nat.eqb_spec i j), (Nat.eqb_spec (g i) (g j)); auto; [subst; congruence|exfalso; auto].
Qed.
Lemma invariant_row n rows k c (J : nat -> cpx) g s : permutation_group n rows -> numbers_classes n rows k c -> In g rows -> length s = n ->
  jastrow_log n (fun i j => J (c i j)) (fun _ => (0, 0)%R) (par (permuted (0, 0)%R g s)) = jastrow_log n (fun i j => J (c i j)) (fun _ => (0, 0)%R) (par s).
Proof.
  intros HG (C1 & C2 & _) Hg L.
  assert (HP : isperm n g) by (exact (row_perm n rows HG g Hg)). pose proof (perm_len n g HP) as LG.
  assert (PN : forall i, i < n -> par (permuted (0, 0)%R g s) i = par s (nth i g 0)).
  { intros i Hi. unfold par, permuted. rewrite (nth_indep _ (0, 0)%R ((fun k => nth k s (0, 0)%R) 0)) by (rewrite map_length; lia).
    exact (map_nth (fun k => nth k s (0, 0)%R) g 0 i). }
  unfold jastrow_log.
  rewrite !(fsum_zero cC cC_laws) by (intros; cpx; ring). f_equal.
  rewrite <- (pair_sum_perm n (fun i j => rmul cC (rmul cC (par s i) (J (c i j))) (par s j)) (fun i => nth i g 0)).
  - apply pair_sum_ext. intros i j Hij. rewrite !PN by lia.
    assert (E : c i j = c (nth i g 0) (nth j g 0)).
    { apply C2; try lia.
      - apply (row_lt n rows HG g i Hg). lia.
      - apply (row_lt n rows HG g j Hg). lia.
      - intros E. apply (row_inj n rows HG g i j Hg) in E; lia.
      - exists g. split; [exact Hg|]. left. auto. }
    rewrite E. reflexivity.
  - intros i j Hi Hj. rewrite (C1 i j Hi Hj). rg.
  - intros i Hi. exact (row_lt n rows HG g i Hg Hi).
  - intros i j Hi Hj. exact (row_inj n rows HG g i j Hg Hi Hj).
Qed.
