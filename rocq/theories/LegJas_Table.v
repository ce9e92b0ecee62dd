(** * Proofs about the numpy Jastrow machine: the table of parameters *)
From Coq Require Import List Arith ZArith Bool Reals Lia Permutation.
From Verif Require Import Base Rings ARNN_Model ToArray_Model Estim_Model Group_Spec Symm_Spec Ansatz_Model LegRbm_Model LegRbm_Spec
  LegRbm_Sym LegJas_Model LegJas_Spec.
Import ListNotations.
Open Scope nat_scope.
Open Scope list_scope.

(** ** pairs *)
Lemma in_pairs n i j : In (i, j) (pairs n) <-> i < j < n.
Proof.
  unfold pairs. rewrite in_flat_map. split.
  - intros (a & Ha & H). apply in_map_iff in H. destruct H as (b & E & Hb). inversion E; subst. apply in_seq in Hb. lia.
  - intros H. exists i. split; [apply in_seq; lia|]. apply in_map_iff. exists j. split; [reflexivity|]. apply in_seq. lia.
Qed.
Lemma pairs_from_length n : forall k a, a + k = n ->
  2 * length (flat_map (fun i => map (fun j => (i, j)) (seq (S i) (n - S i))) (seq a k)) = k * (2 * n - 2 * a - k - 1).
Proof.
  induction k; intros a H; [reflexivity|]. cbn [seq flat_map]. rewrite app_length, map_length, seq_length.
  specialize (IHk (S a)). destruct k as [|k]; [cbn; nia|]. rewrite Nat.mul_add_distr_l, IHk by lia. nia.
Qed.
Lemma pairs_length n : length (pairs n) = n * (n - 1) / 2.
Proof.
  assert (H : 2 * length (pairs n) = n * (n - 1)).
  { unfold pairs. rewrite (pairs_from_length n n 0) by lia. destruct n; [reflexivity|]. f_equal. lia. }
  rewrite <- H, Nat.mul_comm, Nat.div_mul; lia.
Qed.
Lemma flat_nth {A B} (f : A -> list B) (d : B) (e : A) : forall l i k, i < length l -> k < length (f (nth i l e)) ->
  nth (length (flat_map f (firstn i l)) + k) (flat_map f l) d = nth k (f (nth i l e)) d.
Proof.
  induction l as [|a l IH]; cbn [length]; intros i k H HK; [lia|]. destruct i; cbn [firstn flat_map nth] in *.
  - rewrite app_nth1 by exact HK. reflexivity.
  - rewrite app_length, app_nth2 by lia.
    replace (length (f a) + length (flat_map f (firstn i l)) + k - length (f a)) with (length (flat_map f (firstn i l)) + k) by lia.
    apply IH; [lia|exact HK].
Qed.
Lemma firstn_seq a n i : i <= n -> firstn i (seq a n) = seq a i.
Proof. revert a n. induction i; intros a n H; [reflexivity|]. destruct n; [lia|]. cbn. f_equal. apply IHi. lia. Qed.
Lemma first_rows n : forall i, i <= n ->
  2 * length (flat_map (fun i => map (fun j => (i, j)) (seq (S i) (n - S i))) (seq 0 i)) = i * (2 * n - i - 1).
Proof.
  induction i; intros H; [reflexivity|]. rewrite seq_S, flat_map_app, app_length. cbn [flat_map]. rewrite app_nil_r, map_length, seq_length.
  rewrite Nat.mul_add_distr_l, IHi by lia. cbn [Nat.add]. nia.
Qed.
Lemma pairs_nth n i j : i < j < n -> nth (pair_rank n i j) (pairs n) (0, 0) = (i, j) /\ pair_rank n i j < length (pairs n).
Proof.
  intros H. unfold pair_rank.
  assert (E : i * (2 * n - i - 1) / 2 = length (flat_map (fun i => map (fun j => (i, j)) (seq (S i) (n - S i))) (firstn i (seq 0 n)))).
  { rewrite firstn_seq by lia. pose proof (first_rows n i ltac:(lia)) as F. rewrite <- F, Nat.mul_comm, Nat.div_mul; lia. }
  rewrite E.
  assert (E2 : nth (length (flat_map (fun i => map (fun j => (i, j)) (seq (S i) (n - S i))) (firstn i (seq 0 n))) + (j - i - 1)) (pairs n) (0, 0) = (i, j)).
  { unfold pairs. rewrite (flat_nth _ (0, 0) 0) by (rewrite ?seq_length, ?map_length, ?seq_length, ?seq_nth; cbn; lia).
    rewrite seq_nth by lia. cbn [Nat.add].
    rewrite (nth_indep _ _ ((fun j => (i, j)) 0)) by (rewrite map_length, seq_length; lia).
    rewrite (map_nth (fun j => (i, j))), seq_nth by lia. f_equal. lia. }
  split; [exact E2|].
  destruct (le_lt_dec (length (pairs n)) (length (flat_map (fun i => map (fun j => (i, j)) (seq (S i) (n - S i))) (firstn i (seq 0 n))) + (j - i - 1))) as [L|L]; [|exact L].
  rewrite nth_overflow in E2 by exact L. inversion E2. lia.
Qed.
Lemma nodup_pairs n : NoDup (pairs n).
Proof.
  unfold pairs. assert (G : forall l, NoDup l -> NoDup (flat_map (fun i => map (fun j => (i, j)) (seq (S i) (n - S i))) l)).
  { induction l as [|a l IH]; intros H; [constructor|]. inversion H as [|x y N1 N2]; subst. cbn [flat_map].
    apply (proj1 (NoDup_Permutation_bis (l := []) (NoDup_nil _) (le_n _) (fun _ h => h))) || idtac.
    assert (GA : forall (l1 l2 : list (nat * nat)), NoDup l1 -> NoDup l2 -> (forall x, In x l1 -> ~ In x l2) -> NoDup (l1 ++ l2)).
    { induction l1 as [|z l1 IH1]; intros l2 A1 A2 A3; [exact A2|]. inversion A1; subst. cbn. constructor.
      - intros Hin. apply in_app_or in Hin. destruct Hin; [contradiction|]. apply (A3 z); [left; reflexivity|assumption].
      - apply IH1; auto. intros q Hq. apply A3. right. exact Hq. }
    apply GA.
    - apply FinFun.Injective_map_NoDup; [intros u v E; congruence|apply seq_NoDup].
    - apply IH. exact N2.
    - intros [u v] Hu Hv. apply in_map_iff in Hu. destruct Hu as (w & E & _). inversion E; subst.
      apply in_flat_map in Hv. destruct Hv as (b & Hb & Hv). apply in_map_iff in Hv. destruct Hv as (w' & E' & _). inversion E'; subst. contradiction. }
  apply G, seq_NoDup.
Qed.
Lemma nodup_nth_inj {A} (d : A) (l : list A) i j : NoDup l -> i < length l -> j < length l -> nth i l d = nth j l d -> i = j.
Proof. intros N. apply NoDup_nth. exact N. Qed.

(** ** put *)
Lemma put_same W u v k : put W u v k u v = k /\ put W u v k v u = k.
Proof. unfold put. rewrite !Nat.eqb_refl. cbn. rewrite orb_true_r. auto. Qed.
Lemma put_other W u v k a b : ~ (a = u /\ b = v) -> ~ (a = v /\ b = u) -> put W u v k a b = W a b.
Proof.
  intros H1 H2. unfold put. destruct (a =? u) eqn:E1, (b =? v) eqn:E2, (a =? v) eqn:E3, (b =? u) eqn:E4; cbn; auto;
  apply Nat.eqb_eq in E1 || idtac; apply Nat.eqb_eq in E2 || idtac; apply Nat.eqb_eq in E3 || idtac; apply Nat.eqb_eq in E4 || idtac; exfalso; auto.
Qed.
Definition ordered (ps : list (nat * nat)) := Forall (fun p => fst p < snd p) ps.
Lemma ordered_pairs n : ordered (pairs n).
Proof. apply Forall_forall. intros [i j] H. apply in_pairs in H. cbn. lia. Qed.

Lemma number_keep : forall ps k W i j, ordered ps -> i < j -> ~ In (i, j) ps ->
  fst (number ps k W) i j = W i j /\ fst (number ps k W) j i = W j i.
Proof.
  induction ps as [|[u v] ps IH]; intros k W i j HO HI HN; [auto|]. cbn [number].
  inversion HO as [|x y O1 O2]; subst. cbn in O1.
  destruct (IH (S k) (put W u v k) i j O2 HI) as [-> ->]; [intros H; apply HN; right; exact H|].
  assert (~ (i = u /\ j = v)) by (intros (-> & ->); apply HN; left; reflexivity).
  rewrite !put_other; auto; lia.
Qed.
Lemma number_nth : forall ps k W q i j, NoDup ps -> ordered ps -> q < length ps -> nth q ps (0, 0) = (i, j) ->
  fst (number ps k W) i j = k + q /\ fst (number ps k W) j i = k + q.
Proof.
  induction ps as [|[u v] ps IH]; cbn [length]; intros k W q i j HN HO HQ HE; [lia|].
  inversion HN; inversion HO; subst. cbn [number]. destruct q; cbn [nth] in HE.
  - inversion HE; subst. cbn in *. rewrite Nat.add_0_r.
    destruct (number_keep ps (S k) (put W i j k) i j) as [-> ->]; auto. apply put_same.
  - destruct (IH (S k) (put W u v k) q i j) as [-> ->]; auto; lia.
Qed.
Lemma plain_rank n i j : i < j < n -> fst (plain_table n) i j = pair_rank n i j /\ fst (plain_table n) j i = pair_rank n i j.
Proof.
  intros H. destruct (pairs_nth n i j H) as [E L]. unfold plain_table. cbn [fst].
  exact (number_nth (pairs n) 0 blank _ i j (nodup_pairs n) (ordered_pairs n) L E).
Qed.
Lemma plain_number n : snd (plain_table n) = length (pairs n).
Proof. symmetry. apply pairs_length. Qed.
Lemma rank_lt n i j : i < j < n -> pair_rank n i j < n * (n - 1) / 2.
Proof. intros H. rewrite <- pairs_length. apply pairs_nth. exact H. Qed.

(** ** mark *)
Definition hit (am : list (list nat)) (i j u v : nat) : Prop :=
  exists row, In row am /\ (nth i row 0 = u /\ nth j row 0 = v \/ nth i row 0 = v /\ nth j row 0 = u).
Lemma put_rows_spec : forall am i j k W u v,
  (hit am i j u v -> put_rows am i j k W u v = k) /\ (~ hit am i j u v -> put_rows am i j k W u v = W u v).
Proof.
  induction am as [|row am IH]; intros i j k W u v; cbn [put_rows fold_left].
  - split; [intros (r & [] & _)|reflexivity].
  - destruct (IH i j k (put W (nth i row 0) (nth j row 0) k) u v) as [I1 I2]. fold (put_rows am i j k (put W (nth i row 0) (nth j row 0) k)).
    assert (D : {hit am i j u v} + {~ hit am i j u v}).
    { clear. induction am as [|r am IH]; [right; intros (r & [] & _)|]. destruct IH as [Y|N].
      - left. destruct Y as (r' & H & E). exists r'. split; [right; exact H|exact E].
      - destruct (Nat.eq_dec (nth i r 0) u) as [A1|A1], (Nat.eq_dec (nth j r 0) v) as [A2|A2], (Nat.eq_dec (nth i r 0) v) as [A3|A3], (Nat.eq_dec (nth j r 0) u) as [A4|A4];
        try (left; exists r; split; [left; reflexivity|]; auto; fail); right; intros (r' & [<-|H] & E); (lia || apply N; exists r'; auto). }
    destruct D as [D|D].
    + rewrite (I1 D). split; [reflexivity|]. intros N. exfalso. apply N. destruct D as (r' & H & E). exists r'. split; [right; exact H|exact E].
    + rewrite (I2 D). split.
      * intros (r' & [<-|H] & E); [|exfalso; apply D; exists r'; auto].
        destruct E as [(<- & <-)|(<- & <-)]; apply put_same.
      * intros N. apply put_other; intros (E1 & E2); apply N; exists row; (split; [left; reflexivity|]); auto.
Qed.
Lemma hit_dec am i j u v : {hit am i j u v} + {~ hit am i j u v}.
Proof.
  induction am as [|r am IH]; [right; intros (r & [] & _)|]. destruct IH as [Y|N].
  - left. destruct Y as (r' & H & E). exists r'. split; [right; exact H|exact E].
  - destruct (Nat.eq_dec (nth i r 0) u) as [A1|A1], (Nat.eq_dec (nth j r 0) v) as [A2|A2], (Nat.eq_dec (nth i r 0) v) as [A3|A3], (Nat.eq_dec (nth j r 0) u) as [A4|A4];
    try (left; exists r; split; [left; reflexivity|]; auto; fail); right; intros (r' & [<-|H] & E); (lia || apply N; exists r'; auto).
Qed.
Lemma mark_char : forall am ps k W u v,
  (Forall (fun p => ~ hit am (fst p) (snd p) u v) ps /\ mark am ps k W u v = W u v) \/
  (exists q, q < length ps /\ hit am (fst (nth q ps (0, 0))) (snd (nth q ps (0, 0))) u v /\
     (forall q', q < q' < length ps -> ~ hit am (fst (nth q' ps (0, 0))) (snd (nth q' ps (0, 0))) u v) /\
     mark am ps k W u v = k + q).
Proof.
  intros am. induction ps as [|[i j] ps IH]; intros k W u v; cbn [mark length].
  - left. auto.
  - destruct (IH (S k) (put_rows am i j k W) u v) as [(F & E)|(q & HQ & HH & HL & E)].
    + destruct (put_rows_spec am i j k W u v) as [P1 P2]. destruct (hit_dec am i j u v) as [D|D].
      * right. exists 0. split; [lia|]. split; [exact D|]. split.
        { intros [|q'] Hq; [lia|]. cbn [nth]. apply (proj1 (Forall_forall _ _) F). apply nth_In. lia. }
        rewrite E, (P1 D). lia.
      * left. split; [constructor; auto|]. rewrite E. auto.
    + right. exists (S q). split; [lia|]. split; [exact HH|]. split.
      { intros [|q'] Hq; [lia|]. cbn [nth]. apply HL. lia. }
      rewrite E. lia.
Qed.

(** ** keys and rename *)
Lemma existsb_eqb k d : existsb (Nat.eqb k) d = true <-> In k d.
Proof. rewrite existsb_exists. split; [intros (x & H & E); apply Nat.eqb_eq in E; subst; auto|intros H; exists k; split; [auto|apply Nat.eqb_refl]]. Qed.
Lemma keys_spec W : forall ps d, NoDup d ->
  NoDup (keys W ps d) /\
  (forall k, In k (keys W ps d) <-> In k d \/ exists i j, In (i, j) ps /\ k = W i j).
Proof.
  induction ps as [|[i j] ps IH]; intros d ND; cbn [keys].
  - split; [exact ND|]. intros k. split; [auto|]. intros [H|(i & j & [] & _)]. exact H.
  - set (d' := if existsb (Nat.eqb (W i j)) d then d else d ++ [W i j]).
    assert (N' : NoDup d' /\ forall k, In k d' <-> In k d \/ k = W i j).
    { unfold d'. destruct (existsb (Nat.eqb (W i j)) d) eqn:E.
      - split; [exact ND|]. intros k. split; [auto|]. intros [H| ->]; [exact H|]. apply existsb_eqb. exact E.
      - split.
        + apply (Permutation_NoDup (Permutation_cons_append d (W i j))). constructor; [|exact ND].
          intros H. apply existsb_eqb in H. congruence.
        + intros k. rewrite in_app_iff. cbn. intuition. }
    destruct N' as [N1 N2]. destruct (IH d' N1) as [K1 K2]. split; [exact K1|]. intros k. rewrite K2, N2. split.
    + intros [[H| ->]|(a & b & H & ->)]; [auto|right; exists i, j; split; [left; reflexivity|reflexivity]|right; exists a, b; split; [right; exact H|reflexivity]].
    + intros [H|(a & b & [H|H] & ->)]; [auto|inversion H; subst; auto|right; exists a, b; auto].
Qed.
Lemma position_in k d : In k d -> exists v, position k d = Some v /\ v < length d /\ nth v d 0 = k.
Proof.
  induction d as [|x d IH]; intros H; [destruct H|]. cbn [position length]. destruct (k =? x) eqn:E.
  - apply Nat.eqb_eq in E. subst. exists 0. repeat split; lia.
  - destruct H as [->|H]; [rewrite Nat.eqb_refl in E; discriminate|]. destruct (IH H) as (v & -> & L & N). exists (S v). cbn. repeat split; auto. lia.
Qed.
Lemma rename_spec d : forall ps W, NoDup ps -> ordered ps -> (forall i j, In (i, j) ps -> In (W i j) d) ->
  exists W', rename d ps W = Ok W' /\
   (forall i j, In (i, j) ps -> position (W i j) d = Some (W' i j) /\ W' j i = W' i j) /\
   (forall i j, i < j -> ~ In (i, j) ps -> W' i j = W i j /\ W' j i = W j i).
Proof.
  induction ps as [|[i j] ps IH]; intros W HN HO HD; cbn [rename].
  - exists W. split; [reflexivity|]. split; [intros ? ? []|auto].
  - inversion HN as [|? ? N1 N2]; inversion HO as [|? ? O1 O2]; subst. cbn in O1.
    destruct (position_in (W i j) d) as (v & EV & LV & NV); [apply HD; left; reflexivity|]. rewrite EV.
    assert (P : forall a b, a < b -> (a, b) <> (i, j) -> put W i j v a b = W a b /\ put W i j v b a = W b a).
    { intros a b L NE. assert (~ (a = i /\ b = j)) by (intros (-> & ->); auto). split; apply put_other; lia. }
    destruct (IH (put W i j v) N2 O2) as (W' & ER & H1 & H2).
    { intros a b H. assert (L : a < b) by (pose proof (proj1 (Forall_forall _ _) O2 _ H); auto).
      destruct (P a b L) as [-> _]; [intros E; inversion E; subst; contradiction|]. apply HD. right. exact H. }
    exists W'. split; [exact ER|]. split.
    + intros a b [E|H].
      * inversion E; subst. destruct (H2 a b O1 N1) as [-> ->]. destruct (put_same W a b v) as [-> ->]. auto.
      * destruct (H1 a b H) as [E1 E2]. split; [|exact E2]. assert (L : a < b) by (pose proof (proj1 (Forall_forall _ _) O2 _ H); auto).
        rewrite <- E1. f_equal. refine (eq_sym (proj1 (P a b L _))). intros E; inversion E; subst; contradiction.
    + intros a b L NI. destruct (H2 a b L) as [-> ->]; [intros H; apply NI; right; exact H|].
      apply P; [exact L|]. intros E. apply NI. left. symmetry. exact E.
Qed.

(** ** The table of a group of symmetries *)
Section Sym.
  Variables (n : nat) (rows : list (list nat)).
  Hypothesis HG : permutation_group n rows.

  Lemma row_perm g : In g rows -> isperm n g.
  Proof. intros H. exact (proj1 (Forall_forall _ _) (proj1 HG) g H). Qed.
  Lemma row_lt g i : In g rows -> i < n -> nth i g 0 < n.
  Proof.
    intros H HI. apply (perm_lt n g _ (row_perm g H)). apply nth_In. rewrite (perm_len n g (row_perm g H)). exact HI.
  Qed.
  Lemma row_inj g i j : In g rows -> i < n -> j < n -> nth i g 0 = nth j g 0 -> i = j.
  Proof.
    intros H HI HJ E. pose proof (row_perm g H) as P. pose proof (perm_len n g P) as L.
    apply (nodup_nth_inj 0 g i j); try lia.
    apply (Permutation_NoDup (Permutation_sym P)), seq_NoDup.
  Qed.
  Lemma times_nth (p q : list nat) i : i < length p -> nth i (times p q) 0 = nth (nth i p 0) q 0.
  Proof.
    intros H. unfold times, permuted. rewrite (nth_indep _ 0 ((fun k => nth k q 0) 0)) by (rewrite map_length; exact H).
    apply (map_nth (fun k => nth k q 0)).
  Qed.
  Lemma inverse_row g : In g rows -> exists h, In h rows /\ forall i, i < n -> nth (nth i g 0) h 0 = i /\ nth (nth i h 0) g 0 = i.
  Proof.
    intros H. destruct HG as (_ & (_ & HI & _) & _). destruct (HI g H) as (h & Hh & E1 & E2). exists h. split; [exact Hh|].
    intros i Hi. split.
    - rewrite <- times_nth by (rewrite (perm_len n g (row_perm g H)); exact Hi). rewrite E1. apply seq_nth. exact Hi.
    - rewrite <- times_nth by (rewrite (perm_len n h (row_perm h Hh)); exact Hi). rewrite E2. apply seq_nth. exact Hi.
  Qed.
  Lemma product_row g h : In g rows -> In h rows -> exists f, In f rows /\ forall i, i < n -> nth i f 0 = nth (nth i h 0) g 0.
  Proof.
    intros H Hh. destruct HG as (_ & (_ & HI & HC) & _).
    destruct (HI h Hh) as (h' & Hh' & E1 & E2).
    exists (times h g). split.
    - apply (HC h' g h Hh' H). split; assumption.
    - intros i Hi. apply times_nth. rewrite (perm_len n h (row_perm h Hh)). exact Hi.
  Qed.
  Lemma identity_row : exists f, In f rows /\ forall i, i < n -> nth i f 0 = i.
  Proof.
    destruct HG as (_ & (NE & _) & _). destruct rows as [|g rs] eqn:E; [congruence|]. rewrite <- E in *.
    assert (Hg : In g rows) by (rewrite E; left; reflexivity).
    destruct (inverse_row g Hg) as (h & Hh & HI). destruct (product_row h g Hh Hg) as (f & Hf & HF). exists f. split; [exact Hf|].
    intros i Hi. rewrite HF by exact Hi. apply HI. exact Hi.
  Qed.

  Lemma rel_refl i j : i < n -> j < n -> related rows i j i j.
  Proof. intros HI HJ. destruct identity_row as (f & Hf & HF). exists f. split; [exact Hf|]. left. auto. Qed.
  Lemma rel_sym i j u v : i < n -> j < n -> related rows i j u v -> related rows u v i j.
  Proof.
    intros HI HJ (g & Hg & E). destruct (inverse_row g Hg) as (h & Hh & HH). exists h. split; [exact Hh|].
    destruct (HH i HI) as [A _], (HH j HJ) as [B _].
    destruct E as [(<- & <-)|(<- & <-)]; auto.
  Qed.
  Lemma rel_trans i j u v a b : i < n -> j < n -> related rows i j u v -> related rows u v a b -> related rows i j a b.
  Proof.
    intros HI HJ (g & Hg & E) (h & Hh & F). destruct (product_row h g Hh Hg) as (f & Hf & HF). exists f. split; [exact Hf|].
    rewrite (HF i HI), (HF j HJ).
    destruct E as [(-> & ->)|(-> & ->)]; destruct F as [(-> & ->)|(-> & ->)]; auto.
  Qed.
  Lemma rel_swap i j u v : related rows i j u v -> related rows j i u v.
  Proof. intros (g & Hg & E). exists g. split; [exact Hg|]. tauto. Qed.

  Let W := mark rows (pairs n) 0 LegJas_Model.blank.
  Lemma hit_related i j u v : hit rows i j u v <-> related rows i j u v.
  Proof. split; intros H; exact H. Qed.
  Lemma last_hit u v : u < v < n -> exists q, q < length (pairs n) /\
    (let p := nth q (pairs n) (0, 0) in related rows (fst p) (snd p) u v) /\
    (forall q', q < q' < length (pairs n) -> ~ related rows (fst (nth q' (pairs n) (0, 0))) (snd (nth q' (pairs n) (0, 0))) u v) /\
    W u v = q.
  Proof.
    intros H. destruct (mark_char rows (pairs n) 0 LegJas_Model.blank u v) as [(F & _)|(q & HQ & HH & HL & E)].
    - exfalso. apply (proj1 (Forall_forall _ _) F (u, v)); [apply in_pairs; exact H|]. cbn. apply rel_refl; lia.
    - exists q. cbn zeta. auto.
  Qed.
  Lemma pair_bounds q : q < length (pairs n) -> fst (nth q (pairs n) (0, 0)) < n /\ snd (nth q (pairs n) (0, 0)) < n.
  Proof.
    intros H. assert (In (nth q (pairs n) (0, 0)) (pairs n)) by (apply nth_In; exact H).
    destruct (nth q (pairs n) (0, 0)) as [a b]. apply in_pairs in H0. cbn. lia.
  Qed.
  Lemma marks i j u v : i < j < n -> u < v < n -> (W i j = W u v <-> related rows i j u v).
  Proof.
    intros HI HU. destruct (last_hit i j HI) as (q & LQ & RQ & MQ & EQ), (last_hit u v HU) as (r & LR & RR & MR & ER).
    cbn zeta in *. destruct (pair_bounds q LQ) as [B1 B2], (pair_bounds r LR) as [B3 B4].
    rewrite EQ, ER. split.
    - intros E. rewrite <- E in RR. apply (rel_trans i j (fst (nth q (pairs n) (0, 0))) (snd (nth q (pairs n) (0, 0)))); try lia; auto.
      apply rel_sym; auto.
    - intros R. destruct (lt_eq_lt_dec q r) as [[L|E]|L]; [|exact E|].
      + exfalso. apply (MQ r (conj L LR)). apply (rel_trans _ _ u v); auto. apply rel_sym; auto; lia.
      + exfalso. apply (MR q (conj L LQ)). apply (rel_trans _ _ i j); auto.
  Qed.

  Lemma gen_symm_ok : exists c k, gen_symm n rows = Ok (c, k) /\ numbers_classes n rows k c.
  Proof.
    unfold gen_symm. fold W. destruct (keys_spec W (pairs n) [] (NoDup_nil _)) as [KN KI]. set (d := keys W (pairs n) []) in *.
    destruct (rename_spec d (pairs n) W (nodup_pairs n) (ordered_pairs n)) as (c & ER & HC & _).
    { intros i j H. apply KI. right. exists i, j. auto. }
    rewrite ER. cbn [bind]. exists c, (length d). split; [reflexivity|].
    assert (CI : forall i j, i < j < n -> c i j < length d /\ nth (c i j) d 0 = W i j /\ c j i = c i j).
    { intros i j H. apply in_pairs in H. destruct (HC i j H) as [E1 E2].
      destruct (position_in (W i j) d) as (v & EV & LV & NV); [apply KI; right; exists i, j; auto|].
      rewrite EV in E1. inversion E1; subst v. auto. }
    assert (CL : forall i j u v, i < j < n -> u < v < n -> (c i j = c u v <-> related rows i j u v)).
    { intros i j u v HI HU. rewrite <- (marks i j u v HI HU). destruct (CI i j HI) as (L1 & N1 & _), (CI u v HU) as (L2 & N2 & _).
      split; [congruence|]. intros E. apply (nodup_nth_inj 0 d); auto. congruence. }
    assert (CS : forall i j, i < n -> j < n -> i <> j -> c i j = c j i).
    { intros i j HI HJ NE. destruct (lt_eq_lt_dec i j) as [[L|E]|L]; [|lia|].
      - symmetry. apply CI. lia.
      - apply CI. lia. }
    split; [|split; [|split]].
    - intros i j HI HJ. destruct (Nat.eq_dec i j) as [->|NE]; [reflexivity|auto].
    - intros i j u v HI HJ NE HU HV NE'.
      assert (SU : forall a b x y, related rows a b x y <-> related rows a b y x).
      { intros a b x y. split; intros (g & Hg & E); exists g; (split; [exact Hg|tauto]). }
      assert (SI : forall a b x y, related rows a b x y <-> related rows b a x y).
      { intros. split; apply rel_swap. }
      destruct (lt_eq_lt_dec i j) as [[L|E]|L]; [|lia|]; destruct (lt_eq_lt_dec u v) as [[L'|E]|L']; try lia.
      + apply CL; lia.
      + rewrite (CS u v), SU by lia. apply CL; lia.
      + rewrite (CS i j), SI by lia. apply CL; lia.
      + rewrite (CS i j), (CS u v), SI, SU by lia. apply CL; lia.
    - intros i j HI HJ NE. destruct (lt_eq_lt_dec i j) as [[L|E]|L]; [|lia|].
      + apply CI; lia.
      + rewrite (CS i j) by lia. apply CI; lia.
    - intros q HQ. assert (HD : In (nth q d 0) d) by (apply nth_In; exact HQ). apply KI in HD. destruct HD as [[]|(i & j & H & E)].
      apply in_pairs in H. exists i, j. split; [exact H|]. destruct (CI i j H) as (L & N & _).
      apply (nodup_nth_inj 0 d); auto. congruence.
  Qed.
End Sym.
