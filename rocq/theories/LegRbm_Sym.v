(** Symmetries, one-hot encoding, phases and constructors of the numpy Boltzmann machines *)
From Coq Require Import List Arith ZArith QArith Qround Bool Reals Lra Lia Lqa Ring Permutation.
From Verif Require Import Base Rings ARNN_Model ARNN_Proofs ToArray_Model Estim_Model Estim_Spec Estim_Proofs
  Group_Model Group_Spec Group_Proofs Masked_Spec Symm_Model Symm_Spec Symm_Proofs Ansatz_Model Ansatz_Spec Ansatz_Proofs Equiv_Proofs LocVal_Proofs
  LegRbm_Model LegRbm_Spec LegRbm_Proofs LegRbm_Grad.
Import ListNotations.
Open Scope R_scope.
Open Scope nat_scope.

(** ** symmetries *)
Definition part_w (c : rcfg) (p : list cpx) : list cpx := skipn (size_a c + size_b c) p.
Definition part_b (c : rcfg) (p : list cpx) : option (nat -> cpx) :=
  if c_hid c then Some (fun l => entries (size_a c) p l) else None.
Lemma part_w_length c p : length p = n_par c -> length (part_w c p) = c_n c * c_feat c.
Proof. intros H. unfold part_w. rewrite skipn_length, H, n_par_off. lia. Qed.
Lemma nth_skipn' {A} (d : A) k l i : nth i (skipn k l) d = nth (k + i) l d.
Proof. revert l. induction k as [|k IH]; intros l; [reflexivity|]. destruct l; cbn; [now destruct i|apply IH]. Qed.
Lemma shaped_concat {A} (d : A) (x : list (list A)) n m : shaped n m x ->
  concat x = map (fun q => nth (q mod m) (nth (q / m) x []) d) (seq 0 (n * m)).
Proof.
  intros [L F]. revert n L. induction x as [|r x IH]; intros n L; cbn [length] in L; subst n; [reflexivity|].
  inversion F as [|? ? Hr F']; subst. cbn [concat]. cbn [Nat.mul]. rewrite seq_app, map_app. f_equal.
  - rewrite (list_nth_seq r d) at 1. apply map_ext_in. intros q Hq. apply in_seq in Hq.
    rewrite Nat.div_small, Nat.mod_small by lia. reflexivity.
  - rewrite (IH F' (length x) eq_refl). cbn [Nat.add]. 
    assert (S : forall k s, seq (s + length r) k = map (fun q => q + length r) (seq s k)).
    { induction k as [|k IHk]; intros s; [reflexivity|]. cbn [seq map]. f_equal. rewrite <- IHk. f_equal. }
    pose proof (S (length x * length r) 0) as S0. cbn [Nat.add] in S0. rewrite S0, map_map. apply map_ext_in. intros q Hq. apply in_seq in Hq.
    assert (length r <> 0) by (intros E; rewrite E in Hq; lia).
    replace (q + length r) with (q + 1 * length r) by lia. rewrite Nat.div_add, Nat.mod_add by assumption.
    rewrite Nat.add_1_r. reflexivity.
Qed.
Lemma hid_symm c p s rows : c_sym c = Some rows -> proper c -> length p = n_par c ->
  hid_val c p s = lsum_log (map leg_log_cosh (concat (dense_symm cC rows (c_feat c) (part_w c p) None (part_b c p) s))).
Proof.
  intros HS HP HL. unfold hid_val, doc_hidden. rewrite HS.
  rewrite (shaped_concat (0, 0)%R _ (c_feat c) (length rows)) by exact (symm_shaped cC rows (c_feat c) (part_w c p) None (part_b c p) s).
  rewrite map_map. f_equal. apply map_ext_in. intros j Hj. apply in_seq in Hj. f_equal.
  assert (Hr : length rows <> 0) by (intros E; rewrite E in Hj; lia).
  change (0, 0)%R with (r0 cC).
  rewrite (symm_entry cC (c_n c)).
  - unfold unit_input, theta, biased.
    assert (E : fsum cC (c_n c) (fun i => (doc_w c p i j * nth i s (r0 cC))%C)
      = fsum cC (c_n c) (fun i => (nth i s (r0 cC) * weight cC (c_feat c) (part_w c p) None (nth i (nth (j mod length rows) rows []) O) (j / length rows))%C)).
    { apply (fsum_ext cC). intros i Hi. unfold doc_w, weight, part_w. rewrite HS. rewrite nth_skipn'. unfold entries. change (r0 cC) with (0, 0)%R. rg. }
    unfold doc_b, part_b. rewrite HS. destruct (c_hid c).
    + refine (eq_trans (f_equal (fun z => radd cC z _) E) _). reflexivity.
    + refine (eq_trans (f_equal (fun z => radd cC z _) E) _). change (0%R, 0%R) with (r0 cC). rg.
  - exact (HP rows HS).
  - apply part_w_length, HL.
  - apply Nat.div_lt_upper_bound; lia.
  - apply Nat.mod_upper_bound, Hr.
Qed.
Lemma fsum_all (l : list cpx) n : length l = n -> fsum cC n (fun i => nth i l (0, 0)%R) = lsum cC l.
Proof.
  intros <-. rewrite (fsum_lsum cC cC_laws). f_equal. symmetry. exact (list_nth_seq l (0, 0)%R).
Qed.
Lemma row_symm c p s rows g : c_sym c = Some rows -> permutation_group (c_n c) rows -> length p = n_par c -> length s = c_n c -> In g rows ->
  row_val c p (permuted (0, 0)%R g s) = row_val c p s.
Proof.
  intros HS HG HL Hs Hg.
  assert (HP : proper c). { intros r E. rewrite HS in E. injection E as <-. apply HG. }
  unfold row_val. rewrite !(hid_symm c p _ rows HS HP HL).
  rewrite (lsum_log_perm (map leg_log_cosh (concat (dense_symm cC rows (c_feat c) (part_w c p) None (part_b c p) (permuted (0, 0)%R g s))))
     (map leg_log_cosh (concat (dense_symm cC rows (c_feat c) (part_w c p) None (part_b c p) s)))).
  2:{ apply Permutation_map, concat_perm. apply (symm_pooled cC cC_laws (c_n c)); try assumption. apply part_w_length, HL. }
  destruct (c_vis c) eqn:Hv; [|reflexivity]. do 2 f_equal. unfold doc_a. rewrite Hv, HS. cbn [visible].
  rewrite !(fsum_scal cC cC_laws). f_equal. unfold row_fn, at_.
  assert (Pg : isperm (c_n c) g). { destruct HG as (F & _). rewrite Forall_forall in F. auto. }
  assert (Lg : length g = c_n c). { unfold isperm in Pg. now rewrite (Permutation_length Pg), seq_length. }
  refine (eq_trans (fsum_all (permuted (0, 0)%R g s) (c_n c) _) (eq_trans _ (eq_sym (fsum_all s (c_n c) Hs)))); [now rewrite permuted_len|].
  apply lsum_perm_cC. now apply (permuted_list_perm (0, 0)%R (c_n c)).
Qed.

(** ** one-hot encoding *)
Lemma ext_length L row : length (extended L row) = length row * L.
Proof. unfold extended. induction row as [|k row IH]; [reflexivity|]. cbn [flat_map length]. rewrite app_length, seq_length, IH. lia. Qed.
Lemma ext_nth L row i j : i < length row -> j < L -> nth (i * L + j) (extended L row) 0 = nth i row 0 * L + j.
Proof.
  intros Hi Hj. revert i Hi. induction row as [|k row IH]; intros i Hi; cbn [length] in Hi; [lia|]. unfold extended in *. cbn [flat_map].
  destruct i as [|i].
  - rewrite app_nth1 by (rewrite seq_length; lia). cbn [Nat.mul Nat.add nth]. now rewrite seq_nth.
  - rewrite app_nth2 by (rewrite seq_length; lia). rewrite seq_length. replace (S i * L + j - L) with (i * L + j) by lia. rewrite IH by lia. reflexivity.
Qed.
Lemma ext_seq L n : extended L (seq 0 n) = seq 0 (n * L).
Proof.
  unfold extended. induction n as [|n IH]; [reflexivity|]. rewrite seq_S, flat_map_app, IH. cbn [flat_map Nat.add]. rewrite app_nil_r.
  rewrite <- seq_app. f_equal. lia.
Qed.
Lemma ext_perm L n row : isperm n row -> isperm (n * L) (extended L row).
Proof. intros H. unfold isperm in *. rewrite <- ext_seq. unfold extended. apply Permutation_flat_map, H. Qed.
Lemma perm_len n row : isperm n row -> length row = n.
Proof. intros H. unfold isperm in H. now rewrite (Permutation_length H), seq_length. Qed.
Lemma perm_lt n row k : isperm n row -> In k row -> k < n.
Proof. intros H Hk. apply (Permutation_in _ H) in Hk. apply in_seq in Hk. lia. Qed.
(** permuting a list of blocks *)
Lemma permuted_blocks {A B} (d : A) (d' : B) (f : A -> list B) L g x : (forall a, length (f a) = L) -> Forall (fun k => k < length x) g ->
  flat_map f (permuted d g x) = permuted d' (extended L g) (flat_map f x).
Proof.
  intros HL F. unfold permuted. induction F as [|k g Hk F IH]; [reflexivity|]. unfold extended in *. cbn [map flat_map]. rewrite map_app, <- IH. f_equal.
  clear IH F g. revert k Hk. induction x as [|a x IHx]; intros k Hk; cbn [length] in Hk; [lia|]. destruct k as [|k]; cbn [nth flat_map].
  - cbn [Nat.mul]. rewrite <- (HL a). rewrite (list_nth_seq (f a) d') at 1. apply map_ext_in. intros i Hi. apply in_seq in Hi. now rewrite app_nth1 by lia.
  - rewrite IHx by lia. assert (SQ : forall m s, seq (L + s) m = map (fun q => L + q) (seq s m)).
    { induction m as [|m IHm]; intros s; [reflexivity|]. cbn [seq map]. f_equal. rewrite <- IHm. f_equal. lia. }
    replace (S k * L) with (L + k * L) by lia. rewrite SQ, map_map. apply map_ext. intros q. rewrite app_nth2 by (rewrite HL; lia). rewrite HL. f_equal. lia.
Qed.
Lemma ext_times n L p q : isperm n p -> isperm n q -> extended L (times p q) = times (extended L p) (extended L q).
Proof.
  intros Hp Hq. unfold times. unfold extended at 1.
  rewrite (permuted_blocks 0 0 (fun k => seq (k * L) L) L p q); [reflexivity|intros; apply seq_length|].
  apply Forall_forall. intros k Hk. rewrite (perm_len n q Hq). now apply (perm_lt n p).
Qed.
Lemma ext_inj L p q : 0 < L -> length p = length q -> extended L p = extended L q -> p = q.
Proof.
  intros HL Hl E. apply (nth_ext _ _ 0 0 Hl). intros i Hi.
  pose proof (ext_nth L p i 0 Hi HL) as P. rewrite E, (ext_nth L q i 0) in P by lia. nia.
Qed.
Lemma ext_inverses n L p q : isperm n p -> isperm n q -> inverses n p q -> inverses (n * L) (extended L p) (extended L q).
Proof. intros Hp Hq [A B]. split; rewrite <- (ext_times n) by assumption; rewrite ?A, ?B; apply ext_seq. Qed.
Lemma inverse_unique n p q q' : isperm n p -> isperm n q -> isperm n q' -> inverses n p q -> inverses n p q' -> q = q'.
Proof. intros Hp Hq Hq' [A _] [A' _]. apply (times_cancel n p); congruence. Qed.
Lemma ext_inverse_back n L p p' : isperm n p -> inverses (n * L) (extended L p) p' -> p' = extended L (argsort p).
Proof.
  intros Hp H. pose proof (argsort_perm n p Hp) as Ha. pose proof (argsort_inverses n p Hp) as Hi.
  pose proof (ext_inverses n L p _ Hp Ha Hi) as He.
  pose proof (ext_perm L n p Hp) as Pe. pose proof (ext_perm L n _ Ha) as Pa.
  destruct H as [H1 H2]. destruct He as [E1 E2].
  assert (Lp : length p' = n * L).
  { rewrite <- (perm_len _ _ Pe). apply (f_equal (@length nat)) in H2. unfold times in H2. rewrite permuted_len, seq_length in H2. rewrite H2. symmetry. apply perm_len. exact Pe. }
  assert (Pp : isperm (n * L) p').
  { unfold isperm. apply NoDup_Permutation_bis.
    - apply NoDup_nth with (d := 0). intros i j Hi' Hj E.
      assert (G : forall i, i < length p' -> nth (nth i p' 0) (extended L p) 0 = i).
      { intros k Hk. assert (T : nth k (times p' (extended L p)) 0 = k) by (rewrite H2, seq_nth by lia; reflexivity).
        unfold times in T. rewrite (nth_permuted 0 0) in T by lia. exact T. }
      rewrite <- (G i Hi'), <- (G j Hj), E. reflexivity.
    - rewrite seq_length. lia.
    - intros k Hk. apply In_nth with (d := 0) in Hk. destruct Hk as [i [Hi' <-]]. apply in_seq. split; [lia|]. cbn [Nat.add].
      destruct (Nat.lt_ge_cases (nth i p' 0) (n * L)) as [|Hge]; [assumption|exfalso].
      assert (T : forall k, k < length p' -> nth (nth k p' 0) (extended L p) 0 = k).
      { intros k Hk. assert (T : nth k (times p' (extended L p)) 0 = k) by (rewrite H2, seq_nth by lia; reflexivity).
        unfold times in T. rewrite (nth_permuted 0 0) in T by lia. exact T. }
      pose proof (T i Hi') as Ti. rewrite nth_overflow in Ti by (rewrite (perm_len _ _ Pe); lia). subst i.
      (* the position 0 is also hit by an entry inside *)
      assert (N : nth 0 p' 0 < n * L); [|lia].

      assert (Hz : In 0 (extended L p)). { apply (Permutation_in _ (Permutation_sym Pe)). apply in_seq. lia. }
      apply In_nth with (d := 0) in Hz. destruct Hz as [k [Hk Ek]]. rewrite (perm_len _ _ Pe) in Hk.
      assert (T1 : nth k (times (extended L p) p') 0 = k) by (rewrite H1, seq_nth by lia; reflexivity).
      unfold times in T1. rewrite (nth_permuted 0 0) in T1 by (rewrite (perm_len _ _ Pe); lia). rewrite Ek in T1. lia. }
  apply (inverse_unique (n * L) (extended L p)); auto; split; assumption.
Qed.
Lemma ext_group n L rows : 0 < L -> permutation_group n rows -> permutation_group (n * L) (map (extended L) rows).
Proof.
  intros HL (F & (NE & I & Cl) & N). pose proof F as F0. rewrite Forall_forall in F. split; [|split; [split; [|split]|]].
  - apply Forall_forall. intros r Hr. apply in_map_iff in Hr. destruct Hr as [q [<- Hq]]. apply ext_perm. auto.
  - destruct rows; [contradiction|discriminate].
  - intros r Hr. apply in_map_iff in Hr. destruct Hr as [q [<- Hq]]. destruct (I q Hq) as [q' [Hq' J]].
    exists (extended L q'). split; [now apply in_map|]. apply ext_inverses; auto.
  - intros r s r' Hr Hs J. apply in_map_iff in Hr. destruct Hr as [p [<- Hp]]. apply in_map_iff in Hs. destruct Hs as [q [<- Hq]].
    apply (ext_inverse_back n) in J; [|auto]. subst r'. rewrite <- (ext_times n) by (auto using argsort_perm). apply in_map.
    apply (Cl p q); auto. now apply argsort_inverses, F.
  - clear NE I Cl F. induction N as [|r rows Hr N IH]; cbn [map]; [constructor|]. inversion F0 as [|? ? Fr F']; subst. constructor; [|auto].
    intros Hin. apply in_map_iff in Hin. destruct Hin as [q [E Hq]]. rewrite Forall_forall in F'. apply ext_inj in E; [subst; contradiction|exact HL|].
    transitivity n; [|symmetry]; apply perm_len; auto.
Qed.
Definition hot (locals : list Z) (s : Z) : list cpx := map (fun l => if (s =? l)%Z then (1, 0)%R else (-1, 0)%R) locals.
Lemma one_hot_length locals r : length (one_hot_flat locals r) = length r * length locals.
Proof.
  induction r as [|s r IH]; [reflexivity|]. change (one_hot_flat locals (s :: r)) with (hot locals s ++ one_hot_flat locals r).
  rewrite app_length, IH. unfold hot. rewrite map_length. cbn [length]. lia.
Qed.
Lemma one_hot_rows locals n x : Forall (fun r => length r = n) x -> one_hot locals n x = map (one_hot_flat locals) x.
Proof.
  unfold one_hot. induction 1 as [|r x Hr F IH]; [reflexivity|]. cbn [length blocks concat map].
  assert (L : length (one_hot_flat locals r) = n * length locals).
  { rewrite one_hot_length. now rewrite Hr. }
  assert (E : one_hot_flat locals (r ++ concat x) = one_hot_flat locals r ++ one_hot_flat locals (concat x)) by apply flat_map_app.
  rewrite E. rewrite firstn_app, skipn_app, L, Nat.sub_diag. rewrite firstn_all2, skipn_all2 by lia. cbn [firstn skipn]. rewrite app_nil_r. cbn [app]. f_equal. exact IH.
Qed.
Lemma one_hot_entry locals r i l : i < length r -> l < length locals ->
  nth (i * length locals + l) (one_hot_flat locals r) (0, 0)%R = plus_minus (nth i r 0%Z =? nth l locals 0%Z)%Z.
Proof.
  intros Hi Hl. revert i Hi. induction r as [|s r IH]; intros i Hi; cbn [length] in Hi; [lia|]. unfold one_hot_flat in *. cbn [flat_map].
  destruct i as [|i].
  - rewrite app_nth1 by (rewrite map_length; lia). cbn [Nat.mul Nat.add nth].
    set (f := fun l : Z => if (s =? l)%Z then (1, 0)%R else (-1, 0)%R). rewrite (nth_indep _ _ (f 0%Z)) by (now rewrite map_length). rewrite map_nth. reflexivity.
  - rewrite app_nth2 by (rewrite map_length; lia). rewrite map_length. replace (S i * length locals + l - length locals) with (i * length locals + l) by lia. rewrite IH by lia. reflexivity.
Qed.
Lemma one_hot_permuted locals g r : Forall (fun k => k < length r) g ->
  one_hot_flat locals (permuted 0%Z g r) = permuted (0, 0)%R (extended (length locals) g) (one_hot_flat locals r).
Proof. intros F. apply permuted_blocks; [intros; apply map_length|exact F]. Qed.
Lemma one_hot_holds locals r d : Forall (holds d) (one_hot_flat locals r).
Proof.
  apply Forall_forall. intros z Hz. apply in_flat_map in Hz. destruct Hz as [s [_ Hz]]. apply in_map_iff in Hz. destruct Hz as [l [<- _]].
  intros _. destruct (s =? l)%Z; reflexivity.
Qed.

(** ** number of hidden units *)
Lemma py_round_ok q : nearest_even q (py_round q).
Proof.
  unfold py_round. cbv zeta. set (f := Qfloor q). pose proof (Qfloor_le q) as L1. pose proof (Qlt_floor q) as L2. fold f in L1, L2.
  rewrite inject_Z_plus in L2. change (inject_Z 1) with 1%Q in L2.
  destruct (Qle_bool (1 # 2) (q - inject_Z f)) eqn:E1; cbn [negb].
  - apply Qle_bool_iff in E1. destruct (Qle_bool (q - inject_Z f) (1 # 2)) eqn:E2; cbn [negb].
    + apply Qle_bool_iff in E2. destruct (Z.even f) eqn:Ev.
      * unfold nearest_even. repeat split; try lra. intros _. exact Ev.
      * unfold nearest_even. rewrite inject_Z_plus. change (inject_Z 1) with 1%Q. repeat split; try lra. intros _.
        change (f + 1)%Z with (Z.succ f). rewrite Z.even_succ, <- Z.negb_even, Ev. reflexivity.
    + assert (~ (q - inject_Z f <= 1 # 2)%Q) by (intros H; apply Qle_bool_iff in H; congruence).
      unfold nearest_even. rewrite inject_Z_plus. change (inject_Z 1) with 1%Q. repeat split; try lra.
  - assert (~ (1 # 2 <= q - inject_Z f)%Q) by (intros H; apply Qle_bool_iff in H; congruence).
    unfold nearest_even. repeat split; try lra.
Qed.
Lemma py_int_div a b : (0 <= a)%Z -> (0 < b)%Z -> py_int (inject_Z a / inject_Z b) = (a / b)%Z.
Proof.
  intros Ha Hb. unfold py_int.
  assert (Hq : (inject_Z a / inject_Z b == a # Z.to_pos b)%Q).
  { unfold Qeq, Qdiv, Qmult, Qinv, inject_Z. cbn. destruct b as [|b|b]; try lia. cbn. lia. }
  assert (P : Qle_bool 0 (inject_Z a / inject_Z b) = true).
  { apply Qle_bool_iff. rewrite Hq. unfold Qle. cbn. lia. }
  rewrite P. rewrite Hq. unfold Qfloor. rewrite Z2Pos.id by exact Hb. reflexivity.
Qed.
