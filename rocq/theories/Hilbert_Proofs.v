(** * Proofs about the indexing of Hilbert spaces *)
From Coq Require Import ZArith QArith List Bool Lia Sorted Permutation.
From Verif Require Import Base BaseFacts Hilbert_Model Hilbert_Spec.
Import ListNotations.
Open Scope Z_scope.

(** Induction principle that goes through the factors of a tensor product. *)
Fixpoint hilbert_nested_ind (P : hilbert -> Prop)
  (HF : forall m f N np, P (Fock m f N np))
  (HS : forall s N t, P (Spin s N t))
  (HQ : forall N, P (Qubit N))
  (HC : forall ls N c, P (Custom ls N c))
  (HT : forall l, Forall P l -> P (Tensor l))
  (HD : forall p, P p -> P (Doubled p)) (h : hilbert) : P h :=
  match h with
  | Fock m f N np => HF m f N np
  | Spin s N t => HS s N t
  | Qubit N => HQ N
  | Custom ls N c => HC ls N c
  | Tensor l =>
      HT l ((fix go (l : list hilbert) : Forall P l :=
               match l with
               | [] => Forall_nil P
               | x :: l' => Forall_cons x (hilbert_nested_ind P HF HS HQ HC HT HD x) (go l')
               end) l)
  | Doubled p => HD p (hilbert_nested_ind P HF HS HQ HC HT HD p)
  end.

(** ** lexicographic order *)
Lemma lex_lt_length a b : lex_lt a b -> length a = length b.
Proof. induction 1; simpl; congruence. Qed.

Lemma lex_lt_irrefl a : ~ lex_lt a a.
Proof.
  intros H. remember a as b in H at 2. revert Heqb.
  induction H; intros E; inversion E; subst; [lia|auto].
Qed.

Lemma lex_app_l a b c d : lex_lt a b -> length c = length d -> lex_lt (a ++ c) (b ++ d).
Proof.
  induction 1; simpl; intros Hl.
  - apply lex_head; auto. rewrite !app_length. lia.
  - apply lex_tail; auto.
Qed.

Lemma lex_app_r a c d : lex_lt c d -> lex_lt (a ++ c) (a ++ d).
Proof. induction a; simpl; auto. intros. apply lex_tail; auto. Qed.

(** ** Abstract indexings: [f] enumerates [P] in lexicographic order *)
Record indexing (P : list Z -> Prop) (len : nat) (N : Z) (f : Z -> list Z) : Prop := {
  ix_pos : 0 <= N;
  ix_in : forall n, 0 <= n < N -> P (f n);
  ix_onto : forall s, P s -> exists n, 0 <= n < N /\ f n = s;
  ix_len : forall s, P s -> length s = len;
  ix_mono : forall n m, 0 <= n -> n < m -> m < N -> lex_lt (f n) (f m)
}.

Lemma ix_inj P len N f : indexing P len N f ->
  forall n m, 0 <= n < N -> 0 <= m < N -> f n = f m -> n = m.
Proof.
  intros H n m Hn Hm E. destruct (Z.lt_trichotomy n m) as [L|[L|L]]; auto; exfalso.
  - apply (lex_lt_irrefl (f n)). rewrite E at 2. apply (ix_mono _ _ _ _ H); lia.
  - apply (lex_lt_irrefl (f n)). rewrite E at 1. apply (ix_mono _ _ _ _ H); lia.
Qed.

Lemma ix_iff P Q len N f : (forall s, P s <-> Q s) -> indexing P len N f -> indexing Q len N f.
Proof.
  intros E [H1 H2 H3 H4 H5]. constructor; auto.
  - intros; apply E; auto.
  - intros; apply H3, E; auto.
  - intros; apply H4, E; auto.
Qed.

Lemma indexing_prod P1 l1 N1 f1 P2 l2 N2 f2 :
  indexing P1 l1 N1 f1 -> indexing P2 l2 N2 f2 ->
  indexing (fun s => exists a b, s = a ++ b /\ P1 a /\ P2 b) (l1 + l2) (N1 * N2)
           (fun n => f1 (n / N2) ++ f2 (n mod N2)).
Proof.
  intros A B. constructor.
  - pose proof (ix_pos _ _ _ _ A); pose proof (ix_pos _ _ _ _ B). nia.
  - intros n Hn. pose proof (ix_pos _ _ _ _ B).
    assert (0 < N2) by (destruct (Z.eq_dec N2 0); [subst; rewrite Z.mul_0_r in Hn; lia|lia]).
    exists (f1 (n / N2)), (f2 (n mod N2)). split; auto. split.
    + apply (ix_in _ _ _ _ A). split; [apply Z.div_pos; lia|].
      apply Z.div_lt_upper_bound; lia.
    + apply (ix_in _ _ _ _ B). apply Z.mod_pos_bound; lia.
  - intros s (a & b & -> & Ha & Hb).
    destruct (ix_onto _ _ _ _ A a Ha) as (n1 & H1 & <-).
    destruct (ix_onto _ _ _ _ B b Hb) as (n2 & H2 & <-).
    exists (n1 * N2 + n2). split; [nia|].
    rewrite Z.div_add_l by lia. rewrite Z.div_small by lia. rewrite Z.add_0_r.
    rewrite Z.add_comm, Z.mod_add by lia. rewrite Z.mod_small by lia. auto.
  - intros s (a & b & -> & Ha & Hb). rewrite app_length.
    rewrite (ix_len _ _ _ _ A a Ha), (ix_len _ _ _ _ B b Hb). auto.
  - intros n m Hn Hnm Hm.
    pose proof (ix_pos _ _ _ _ B). pose proof (ix_pos _ _ _ _ A).
    assert (0 < N2) by (destruct (Z.eq_dec N2 0); [subst; rewrite Z.mul_0_r in Hm; lia|lia]).
    assert (Hmd : 0 <= m / N2 < N1) by (split; [apply Z.div_pos; lia|apply Z.div_lt_upper_bound; lia]).
    assert (Hnd : 0 <= n / N2 < N1) by (split; [apply Z.div_pos; lia|apply Z.div_lt_upper_bound; lia]).
    pose proof (Z.mod_pos_bound n N2 ltac:(lia)). pose proof (Z.mod_pos_bound m N2 ltac:(lia)).
    assert (n / N2 <= m / N2) by (apply Z.div_le_mono; lia).
    destruct (Z.eq_dec (n / N2) (m / N2)) as [E|E].
    + rewrite E. apply lex_app_r. apply (ix_mono _ _ _ _ B); try lia.
      pose proof (Z.div_mod n N2 ltac:(lia)). pose proof (Z.div_mod m N2 ltac:(lia)). nia.
    + apply lex_app_l.
      * apply (ix_mono _ _ _ _ A); lia.
      * rewrite (ix_len _ _ _ _ B), (ix_len _ _ _ _ B); auto; apply (ix_in _ _ _ _ B); lia.
Qed.

(** ** Words over sorted local states *)
Fixpoint word (ls : list Z) (k : nat) (n : Z) : list Z :=
  match k with
  | O => []
  | S k' => word ls k' (n / Z.of_nat (length ls)) ++
            [nth (Z.to_nat (n mod Z.of_nat (length ls))) ls 0]
  end.

Lemma word_length ls k n : length (word ls k n) = k.
Proof. revert n; induction k; simpl; auto. intros. rewrite app_length, IHk. simpl; lia. Qed.

Lemma word_zero ls k : word ls k 0 = repeat (nth 0 ls 0) k.
Proof.
  induction k; cbn [word]; auto.
  rewrite Zdiv_0_l. rewrite Zmod_0_l. rewrite IHk. simpl Z.to_nat.
  change (S k) with (1 + k)%nat. rewrite Nat.add_comm, repeat_app. auto.
Qed.

Lemma indexing_letters ls : StronglySorted Z.lt ls ->
  indexing (fun s => exists x, s = [x] /\ In x ls) 1 (Z.of_nat (length ls))
           (fun n => [nth (Z.to_nat n) ls 0]).
Proof.
  intros Hs. constructor.
  - lia.
  - intros n Hn. eexists; split; eauto. apply nth_In; lia.
  - intros s (x & -> & Hx). apply (In_nth _ _ 0) in Hx. destruct Hx as (i & Hi & <-).
    exists (Z.of_nat i). split; [lia|]. rewrite Nat2Z.id. auto.
  - intros s (x & -> & _); auto.
  - intros n m H1 H2 H3. apply lex_head; auto. apply StronglySorted_nth; auto. lia.
Qed.

Definition is_word (ls : list Z) (k : nat) (s : list Z) : Prop :=
  length s = k /\ forall x, In x s -> In x ls.

Lemma indexing_word ls k : StronglySorted Z.lt ls ->
  indexing (is_word ls k) k (Z.of_nat (length ls) ^ Z.of_nat k) (word ls k).
Proof.
  intros Hs. induction k.
  - simpl. constructor; try lia.
    + intros; split; simpl; auto; tauto.
    + intros s [H _]. destruct s; [|discriminate]. exists 0. simpl; split; auto; lia.
    + intros s [H _]; auto.
  - pose proof (indexing_prod _ _ _ _ _ _ _ _ IHk (indexing_letters ls Hs)) as H.
    rewrite Nat2Z.inj_succ, Z.pow_succ_r by lia. rewrite Z.mul_comm.
    rewrite Nat.add_1_r in H. simpl word. eapply ix_iff; [|exact H].
    intros s. split.
    + intros (a & b & -> & [Ha Ha'] & x & -> & Hx). split.
      * rewrite app_length; simpl; lia.
      * intros y Hy. apply in_app_or in Hy. destruct Hy as [Hy|[<-|[]]]; auto.
    + intros [Hl Hin]. destruct s using rev_ind; [discriminate|].
      exists s, [x]. rewrite app_length in Hl; simpl in Hl. split; auto. split.
      * split; [lia|]. intros; apply Hin, in_or_app; auto.
      * exists x; split; auto. apply Hin, in_or_app; simpl; auto.
Qed.

Lemma skipn_upd {A} (l : list A) k v :
  (k < length l)%nat -> skipn k (upd l k v) = v :: skipn (S k) l.
Proof.
  revert k; induction l; destruct k; simpl; intros; try lia; auto. apply IHl; lia.
Qed.

Lemma firstn_upd {A} (l : list A) k v : firstn k (upd l k v) = firstn k l.
Proof. revert k; induction l; destruct k; simpl; auto. f_equal; auto. Qed.

Lemma digits_loop_word ls k ip out :
  ls <> [] ->
  0 <= ip < Z.of_nat (length ls) ^ Z.of_nat k -> (k <= length out)%nat ->
  firstn k out = repeat (nth 0 ls 0) k ->
  hi_digits_loop ls k ip out = Ok (word ls k ip ++ skipn k out).
Proof.
  intros Hne. revert ip out; induction k; intros ip out Hip Hl Hf.
  - simpl in Hip. assert (ip = 0) by lia; subst. simpl. auto.
  - assert (Hb : 0 < Z.of_nat (length ls)) by (destruct ls; simpl; [congruence|lia]).
    cbn [hi_digits_loop]. destruct (Z.ltb_spec 0 ip).
    + rewrite Nat2Z.inj_succ, Z.pow_succ_r in Hip by lia.
      rewrite IHk.
      * rewrite skipn_upd by lia. simpl word. rewrite <- app_assoc. auto.
      * split; [apply Z.div_pos; lia|]. apply Z.div_lt_upper_bound; lia.
      * rewrite upd_length. lia.
      * rewrite firstn_upd. replace (firstn k out) with (firstn k (firstn (S k) out)).
        -- rewrite Hf. clear. change (S k) with (1 + k)%nat.
           rewrite Nat.add_comm, repeat_app, firstn_app, repeat_length.
           rewrite Nat.sub_diag. simpl. rewrite app_nil_r.
           rewrite <- (repeat_length (nth 0 ls 0) k) at 1. apply firstn_all.
        -- rewrite firstn_firstn. f_equal. lia.
    + assert (ip = 0) by lia. subst. rewrite word_zero. rewrite <- Hf.
      rewrite firstn_skipn. auto.
Qed.

Lemma number_to_state_word ls N n :
  ls <> [] -> 0 <= n < Z.of_nat (length ls) ^ Z.of_nat N ->
  hi_number_to_state ls N n = Ok (word ls N n).
Proof.
  intros Hne Hn. unfold hi_number_to_state. rewrite digits_loop_word; auto.
  - rewrite skipn_all2 by (rewrite repeat_length; lia). rewrite app_nil_r. auto.
  - rewrite repeat_length. lia.
  - rewrite <- (repeat_length (nth 0 ls 0) N) at 1. apply firstn_all.
Qed.

(** sums over fold_left *)
Lemma fold_left_sum (f : nat -> Z) l a :
  fold_left (fun acc i => acc + f i) l a = a + zsum (map f l).
Proof.
  revert a; induction l; intros; simpl; [unfold zsum; simpl; lia|].
  rewrite IHl. unfold zsum; simpl. lia.
Qed.

Lemma basis_nth b ba k i : (i < k)%nat -> nth i (basis_from b ba k) 0 = ba * b ^ Z.of_nat i.
Proof.
  revert ba i; induction k; intros ba i Hi; [lia|]. simpl. destruct i.
  - simpl. lia.
  - rewrite IHk by lia. rewrite Nat2Z.inj_succ, Z.pow_succ_r by lia. ring.
Qed.

Lemma zsum_map_ext {A} (f g : A -> Z) l :
  (forall x, In x l -> f x = g x) -> zsum (map f l) = zsum (map g l).
Proof. intros H. f_equal. apply map_ext_in. auto. Qed.

Lemma zsum_map_mul {A} (f : A -> Z) c l : zsum (map (fun x => c * f x) l) = c * zsum (map f l).
Proof. unfold zsum. induction l; simpl; [lia|]. rewrite IHl. lia. Qed.

Lemma state_to_number_sum ls N st :
  hi_state_to_number ls N st =
  zsum (map (fun i => Z.of_nat (searchsorted ls (nth (N - i - 1) st 0))
                      * Z.of_nat (length ls) ^ Z.of_nat i) (seq 0 N)).
Proof.
  unfold hi_state_to_number. rewrite fold_left_sum. rewrite Z.add_0_l.
  apply zsum_map_ext. intros i Hi. apply in_seq in Hi. unfold hi_basis.
  rewrite basis_nth by lia. lia.
Qed.

Lemma state_to_number_snoc ls N st x :
  length st = N ->
  hi_state_to_number ls (S N) (st ++ [x]) =
  hi_state_to_number ls N st * Z.of_nat (length ls) + Z.of_nat (searchsorted ls x).
Proof.
  intros Hl. rewrite !state_to_number_sum. cbn [seq]. rewrite <- seq_shift.
  cbn [map]. rewrite map_map.
  match goal with |- zsum (?a :: ?l) = _ => change (zsum (a :: l)) with (a + zsum l) end.
  rewrite Nat.sub_0_r, Nat.sub_succ, Nat.sub_0_r. rewrite app_nth2 by lia.
  rewrite Hl, Nat.sub_diag. cbn [nth].
  change (Z.of_nat 0) with 0. rewrite Z.pow_0_r, Z.mul_1_r. rewrite Z.add_comm. f_equal.
  rewrite Z.mul_comm. rewrite <- zsum_map_mul.
  unfold zsum. f_equal. apply map_ext_in. intros i Hi. apply in_seq in Hi.
  rewrite app_nth1 by lia. rewrite Nat2Z.inj_succ, Z.pow_succ_r by lia.
  replace (S N - S i - 1)%nat with (N - i - 1)%nat by lia. ring.
Qed.

Lemma state_to_number_word ls N n :
  StronglySorted Z.lt ls -> ls <> [] -> 0 <= n < Z.of_nat (length ls) ^ Z.of_nat N ->
  hi_state_to_number ls N (word ls N n) = n.
Proof.
  intros Hs Hne. revert n. induction N; intros n Hn.
  - simpl in Hn. assert (n = 0) by lia. subst. auto.
  - assert (Hb : 0 < Z.of_nat (length ls)) by (destruct ls; simpl; [congruence|lia]).
    cbn [word]. rewrite state_to_number_snoc by apply word_length.
    rewrite Nat2Z.inj_succ, Z.pow_succ_r in Hn by lia.
    rewrite IHN.
    + pose proof (Z.mod_pos_bound n _ Hb). rewrite searchsorted_nth by (auto; lia).
      rewrite Z2Nat.id by lia. pose proof (Z.div_mod n (Z.of_nat (length ls)) ltac:(lia)). lia.
    + split; [apply Z.div_pos; lia|]. apply Z.div_lt_upper_bound; lia.
Qed.

(** ** Homogeneous spaces *)

(** The full correctness statement of one space: [f] is the common meaning of the two
    conversions. *)
Record space_ok (h : hilbert) (P : list Z -> Prop) (N : Z) (f : Z -> list Z) : Prop := {
  sp_ix : indexing P (hsize h) N f;
  sp_ns : n_states h = Ok N;
  sp_n2s : forall n, 0 <= n < N -> numbers_to_states h n = Ok (f n);
  sp_s2n : forall n, 0 <= n < N -> states_to_numbers_ h (f n) = Ok n
}.

Definition homog_P (ls : list Z) (N : nat) (c : option (list Z -> bool)) (s : list Z) : Prop :=
  is_word ls N s /\ match c with None => True | Some cf => cf s = true end.

Lemma homog_core ls N c :
  NoDup ls -> ls <> [] -> Z.of_nat (length ls) ^ Z.of_nat N <= max_states ->
  exists M f,
    M <= Z.of_nat (length ls) ^ Z.of_nat N /\
    indexing (homog_P ls N c) N M f /\
    homog_n_states (Some ls) N c = Ok M /\
    (forall n, 0 <= n < M -> homog_numbers_to_states (Some ls) N c n = Ok (f n)) /\
    (forall n, 0 <= n < M -> homog_states_to_numbers (Some ls) N c (f n) = Ok n).
Proof.
  intros Hnd Hne Hsz.
  set (sl := np_sort ls).
  assert (Hsl : StronglySorted Z.lt sl) by (apply np_sort_strict; auto).
  assert (Hlen : length sl = length ls) by apply np_sort_length.
  assert (Hsne : sl <> []) by (intros E; rewrite E in Hlen; destruct ls; simpl in *; congruence).
  pose proof (indexing_word sl N Hsl) as IW. rewrite Hlen in IW.
  assert (EqP : forall s, is_word sl N s <-> is_word ls N s).
  { intros s. unfold is_word. split; intros [H1 H2]; split; auto; intros x Hx;
      apply np_sort_in; auto. }
  destruct c as [cf|].
  - set (bare := filter (fun i => cf (word sl N i)) (zrange (Z.of_nat (length ls) ^ Z.of_nat N))).
    assert (EI : homog_index (Some ls) N (Some cf) = Ok (sl, bare)).
    { unfold homog_index. destruct (Z.leb_spec (Z.of_nat (length ls) ^ Z.of_nat N) max_states); [|lia].
      fold sl. f_equal. f_equal. unfold hi_n_states. rewrite Hlen. apply filter_ext_in.
      intros i Hi. apply in_zrange in Hi. rewrite number_to_state_word; auto.
      rewrite Hlen; auto. }
    assert (Hbs : StronglySorted Z.lt bare) by (apply StronglySorted_filter, zrange_sorted).
    assert (Hbin : forall i, In i bare <-> (0 <= i < Z.of_nat (length ls) ^ Z.of_nat N /\ cf (word sl N i) = true)).
    { intros. unfold bare. rewrite filter_In, in_zrange. tauto. }
    assert (Hbnth : forall k, 0 <= k < Z.of_nat (length bare) -> In (nth (Z.to_nat k) bare 0) bare).
    { intros. apply nth_In. lia. }
    exists (Z.of_nat (length bare)), (fun k => word sl N (nth (Z.to_nat k) bare 0)).
    split; [|split; [|split; [|split]]].
    + assert (length bare <= length (zrange (Z.of_nat (length ls) ^ Z.of_nat N)))%nat.
      { unfold bare. generalize (zrange (Z.of_nat (length ls) ^ Z.of_nat N)).
        induction l; simpl; auto. destruct (cf (word sl N a)); simpl; lia. }
      rewrite zrange_length in H. pose proof (Z.pow_nonneg (Z.of_nat (length ls)) (Z.of_nat N)). lia.
    + constructor.
      * lia.
      * intros n Hn. specialize (Hbnth n Hn). apply Hbin in Hbnth. destruct Hbnth as [H1 H2].
        split; auto. apply EqP. apply (ix_in _ _ _ _ IW); auto.
      * intros s [Hw Hc]. apply EqP in Hw. destruct (ix_onto _ _ _ _ IW s Hw) as (m & Hm & <-).
        assert (Hi : In m bare) by (apply Hbin; auto).
        apply (In_nth _ _ 0) in Hi. destruct Hi as (k & Hk & E).
        exists (Z.of_nat k). split; [lia|]. rewrite Nat2Z.id, E. auto.
      * intros s [[Hw _] _]. auto.
      * intros n m H1 H2 H3. 
        pose proof (Hbnth n ltac:(lia)) as A. pose proof (Hbnth m ltac:(lia)) as B.
        apply Hbin in A. apply Hbin in B.
        apply (ix_mono _ _ _ _ IW); try lia.
        apply StronglySorted_nth; auto. lia.
    + unfold homog_n_states. rewrite EI. simpl. auto.
    + intros n Hn. unfold homog_numbers_to_states. rewrite EI. simpl.
      destruct (Z.ltb_spec n 0); [lia|].
      destruct (Z.leb_spec 0 n); [|lia]. destruct (Z.ltb_spec n (Z.of_nat (length bare))); [|lia].
      simpl. apply number_to_state_word; auto. rewrite Hlen. specialize (Hbnth n Hn).
      apply Hbin in Hbnth. tauto.
    + intros n Hn. unfold homog_states_to_numbers. rewrite EI. simpl.
      specialize (Hbnth n Hn). apply Hbin in Hbnth.
      rewrite state_to_number_word by (try rewrite Hlen; tauto).
      rewrite searchsorted_nth by (auto; lia).
      destruct (Nat.leb_spec (length bare) (Z.to_nat n)); [lia|].
      rewrite Z2Nat.id by lia. auto.
  - assert (EI : homog_index (Some ls) N None = Ok (sl, [])).
    { unfold homog_index. destruct (Z.leb_spec (Z.of_nat (length ls) ^ Z.of_nat N) max_states); [|lia].
      auto. }
    exists (Z.of_nat (length ls) ^ Z.of_nat N), (word sl N).
    split; [lia|]. split; [|split; [|split]].
    + eapply ix_iff; [|exact IW]. intros s. rewrite EqP. unfold homog_P. tauto.
    + unfold homog_n_states. rewrite EI. simpl. unfold hi_n_states. rewrite Hlen. auto.
    + intros n Hn. unfold homog_numbers_to_states. rewrite EI. simpl.
      apply number_to_state_word; auto. rewrite Hlen; auto.
    + intros n Hn. unfold homog_states_to_numbers. rewrite EI. simpl.
      rewrite state_to_number_word; auto. rewrite Hlen; auto.
Qed.

(** local state lists of the built-in spaces *)
Lemma spin_ls_in s2 x :
  In x (map (fun i => - Z.of_nat s2 + 2 * Z.of_nat i) (seq 0 (s2 + 1))) <->
  exists k, 0 <= k <= Z.of_nat s2 /\ x = - Z.of_nat s2 + 2 * k.
Proof.
  rewrite in_map_iff. split.
  - intros (i & <- & Hi). apply in_seq in Hi. exists (Z.of_nat i). lia.
  - intros (k & Hk & ->). exists (Z.to_nat k). rewrite in_seq. lia.
Qed.

Lemma NoDup_map_inj {A B} (f : A -> B) l :
  (forall x y, f x = f y -> x = y) -> NoDup l -> NoDup (map f l).
Proof.
  intros Hf; induction 1; simpl; constructor; auto.
  rewrite in_map_iff. intros (y & E & Hy). apply Hf in E. subst; auto.
Qed.

Lemma spin_ls_NoDup s2 :
  NoDup (map (fun i => - Z.of_nat s2 + 2 * Z.of_nat i) (seq 0 (s2 + 1))).
Proof. apply NoDup_map_inj; [intros; lia|apply seq_NoDup]. Qed.

Lemma zrange_NoDup n : NoDup (zrange n).
Proof. apply StronglySorted_lt_NoDup, zrange_sorted. Qed.

Lemma py_round_int q m : (q == inject_Z m)%Q -> py_round q = m.
Proof.
  unfold Qeq, py_round. simpl. intros H. rewrite Z.mul_1_r in H. rewrite H.
  rewrite Z.div_mul by lia. rewrite Z.mod_mul by lia. simpl.
  auto.
Qed.

Lemma zprod_nonneg l : Forall (fun x => 0 <= x) l -> 0 <= zprod l.
Proof. unfold zprod. induction 1; simpl; [lia|]. nia. Qed.

Lemma local_dims_pos h : sane h -> 1 <= local_dims h.
Proof.
  induction h using hilbert_nested_ind; intros S; inversion S; subst; simpl.
  - pose proof (Z.pow_pos_nonneg (m + 1) (Z.of_nat N)). lia.
  - pose proof (Z.pow_pos_nonneg (Z.of_nat s + 1) (Z.of_nat N)). lia.
  - pose proof (Z.pow_pos_nonneg 2 (Z.of_nat N)). lia.
  - destruct ls0; [congruence|].
    pose proof (Z.pow_pos_nonneg (Z.of_nat (length (z :: ls0))) (Z.of_nat N)).
    simpl length in *. lia.
  - clear S H2. revert H. induction H1; simpl; intros F; unfold zprod; simpl; [lia|].
    inversion F; subst. specialize (IHForall H4). specialize (H3 H). unfold zprod in *. nia.
  - specialize (IHh H0). nia.
Qed.

(** ** Tensor products *)
Fixpoint tens_f (fs : list (Z * (Z -> list Z))) (n : Z) : list Z :=
  match fs with
  | [] => []
  | (_, f) :: fs' =>
      f (n / zprod (map fst fs')) ++ tens_f fs' (n mod zprod (map fst fs'))
  end.

(** correctness data of each factor *)
Definition factor_ok (h : hilbert) (e : Z * (Z -> list Z)) : Prop :=
  space_ok h (config h) (fst e) (snd e) /\ fst e <= local_dims h.

Lemma tens_indexing l es :
  Forall2 factor_ok l es ->
  indexing (config (Tensor l)) (list_sum (map hsize l)) (zprod (map fst es)) (tens_f es).
Proof.
  induction 1.
  - simpl. constructor; unfold zprod; simpl; try lia.
    + intros. constructor.
    + intros s H. inversion H. exists 0. split; auto; lia.
    + intros s H. inversion H. auto.
  - destruct H as [[Hix _ _ _] _]. destruct y as [N f]. simpl in *.
    pose proof (indexing_prod _ _ _ _ _ _ _ _ Hix IHForall2) as IP.
    unfold zprod in *; simpl. eapply ix_iff; [|exact IP]. simpl. intros s. split.
    + intros (a & b & -> & Ha & Hb). constructor; auto.
    + intros H. inversion H; subst. eauto.
Qed.

Lemma sequence_n_states l es :
  Forall2 factor_ok l es -> sequence (map n_states l) = Ok (map fst es).
Proof.
  induction 1; simpl; auto. destruct H as [H _]. rewrite (sp_ns _ _ _ _ H). simpl.
  rewrite IHForall2. auto.
Qed.

Lemma factor_nonneg l es : Forall2 factor_ok l es -> Forall (fun x => 0 <= x) (map fst es).
Proof.
  induction 1; simpl; constructor; auto. destruct H as [[H _ _ _] _]. apply (ix_pos _ _ _ _ H).
Qed.

Lemma factor_bound l es :
  Forall2 factor_ok l es -> Forall sane l -> zprod (map fst es) <= zprod (map local_dims l).
Proof.
  intros H. pose proof (factor_nonneg _ _ H) as Hn. revert Hn.
  induction H; simpl; intros Hn HS; [lia|]. inversion HS; inversion Hn; subst.
  destruct H as [_ Hb]. pose proof (local_dims_pos _ H3).
  pose proof (zprod_nonneg _ H8). unfold zprod in *. simpl. specialize (IHForall2 H8 H4). nia.
Qed.

Lemma fold_left_wrap ns a :
  0 <= a -> Forall (fun x => 0 <= x) ns ->
  (exists ds, Forall2 (fun n d => n <= d /\ 1 <= d) ns ds /\ a * zprod ds < 2 ^ 63) ->
  fold_left (fun a d => wrap64 (a * d)) ns a = a * zprod ns.
Proof.
  intros Ha Hn (ds & HF & Hd). revert a Ha Hd.
  induction HF; simpl; intros a Ha Hd.
  - unfold zprod; simpl; lia.
  - inversion Hn; subst. destruct H as [H H'].
    assert (Hp : 1 <= zprod l').
    { clear - HF. unfold zprod. induction HF; simpl; [lia|]. destruct H. nia. }
    unfold zprod in *; simpl in Hd |- *.
    assert (E : wrap64 (a * x) = a * x).
    { apply wrap64_id. split; [nia|].
      assert (a * x <= a * (y * fold_right Z.mul 1 l')) by (apply Z.mul_le_mono_nonneg_l; nia). lia. }
    rewrite E. rewrite IHHF; auto.
    + ring.
    + nia.
    + assert (a * x * fold_right Z.mul 1 l' <= a * (y * fold_right Z.mul 1 l')).
      { rewrite <- Z.mul_assoc. apply Z.mul_le_mono_nonneg_l; auto. apply Z.mul_le_mono_nonneg_r; lia. }
      lia.
Qed.

Lemma factor_dims l es :
  Forall2 factor_ok l es -> Forall sane l ->
  Forall2 (fun n d => n <= d /\ 1 <= d) (map fst es) (map local_dims l).
Proof.
  induction 1; simpl; intros HS; constructor; inversion HS; subst; auto.
  destruct H as [_ H]. split; auto. apply local_dims_pos; auto.
Qed.

Lemma tens_n2s_fold l es n :
  Forall2 factor_ok l es -> Forall sane l -> 0 < zprod (map fst es) -> 
  fold_right
    (fun hi acc =>
       let? a := acc in
       let? d := n_states hi in
       let? blk := numbers_to_states hi (fst a mod d) in
       Ok (fst a / d, blk ++ snd a))
    (Ok (n, [])) l
  = Ok (n / zprod (map fst es), tens_f es (n mod zprod (map fst es))).
Proof.
  induction 1; intros HS Hp; cbn [map fst snd fold_right tens_f].
  - unfold zprod; simpl. rewrite Z.div_1_r. auto.
  - inversion HS; subst. destruct y as [N f]. destruct H as [H Hb]. cbn [map fst snd fold_right tens_f] in *.
    pose proof (zprod_nonneg _ (factor_nonneg _ _ H0)) as Hnn.
    pose proof (ix_pos _ _ _ _ (sp_ix _ _ _ _ H)).
    assert (EZ : zprod (N :: map fst l') = N * zprod (map fst l')) by reflexivity.
    assert (0 < zprod (map fst l')) by (rewrite EZ in Hp; nia).
    assert (0 < N) by (rewrite EZ in Hp; nia).
    rewrite IHForall2 by auto. cbn [bind fst snd]. rewrite (sp_ns _ _ _ _ H). cbn [bind fst snd].
    rewrite (sp_n2s _ _ _ _ H) by (apply Z.mod_pos_bound; lia). cbn [bind fst snd].
    rewrite EZ. f_equal. f_equal.
    + rewrite Z.div_div by lia. f_equal. ring.
    + rewrite (Z.mul_comm N). rewrite Z.rem_mul_r by lia.
      f_equal.
      * f_equal. rewrite Z.add_comm, Z.mul_comm, Z.div_add_l by lia.
        rewrite (Z.div_small (n mod _)) by (apply Z.mod_pos_bound; lia). lia.
      * f_equal. rewrite Z.mul_comm, Z.mod_add by lia. rewrite Z.mod_mod by lia. auto.
Qed.

(** suffix products *)
Fixpoint suffix_prods (ns : list Z) : list Z :=
  match ns with
  | [] => []
  | _ :: ns' => zprod ns' :: suffix_prods ns'
  end.

Lemma cumprod_spec a ns :
  0 <= a -> Forall (fun x => 0 <= x) ns ->
  (exists ds, Forall2 (fun n d => n <= d /\ 1 <= d) ns ds /\ a * zprod ds < 2 ^ 63) ->
  forall i, (i < length ns)%nat -> nth i (cumprod a ns) 0 = a * zprod (firstn (S i) ns).
Proof.
  intros Ha Hn (ds & HF & Hd). revert a Ha Hd. induction HF; intros a Ha Hd i Hi; [simpl in Hi; lia|]. cbn [cumprod length] in *.
  inversion Hn; subst. destruct H as [H H'].
  assert (Hp : 1 <= zprod l').
  { clear - HF. unfold zprod. induction HF; simpl; [lia|]. destruct H. nia. }
  assert (EZ : zprod (y :: l') = y * zprod l') by reflexivity. rewrite EZ in Hd.
  assert (E : wrap64 (a * x) = a * x).
  { apply wrap64_id. split; [nia|].
    assert (a * x <= a * (y * zprod l')) by (apply Z.mul_le_mono_nonneg_l; nia). lia. }
  rewrite E. destruct i.
  - unfold zprod; simpl; lia.
  - cbn [nth]. rewrite IHHF; auto; try nia; try lia. unfold zprod; simpl. ring.
Qed.

Lemma cumprod_length a ns : length (cumprod a ns) = length ns.
Proof. revert a; induction ns; simpl; auto. Qed.

Lemma suffix_prods_length ns : length (suffix_prods ns) = length ns.
Proof. induction ns; simpl; auto. Qed.

Lemma suffix_prods_nth ns i : (i < length ns)%nat -> nth i (suffix_prods ns) 0 = zprod (skipn (S i) ns).
Proof.
  revert i; induction ns; simpl; intros i Hi; [lia|]. destruct i; auto. rewrite IHns by lia. auto.
Qed.

Lemma zprod_perm a b : Permutation a b -> zprod a = zprod b.
Proof. unfold zprod. induction 1; simpl; lia. Qed.

Lemma removelast_nth {A} (l : list A) i d :
  (i < length l - 1)%nat -> nth i (removelast l) d = nth i l d.
Proof.
  revert i; induction l as [|x l IH]; intros i Hi; simpl in *; [lia|].
  destruct l as [|y l]; simpl in *; [lia|]. destruct i; auto. apply IH. lia.
Qed.

Lemma removelast_len {A} (l : list A) : length (removelast l) = (length l - 1)%nat.
Proof.
  induction l as [|x l IH]; auto. destruct l as [|y l]; auto.
  change (removelast (x :: y :: l)) with (x :: removelast (y :: l)).
  simpl length in *. rewrite IH. lia.
Qed.

Lemma cum_ns_states_r_spec ns :
  Forall (fun x => 0 <= x) ns ->
  (exists ds, Forall2 (fun n d => n <= d /\ 1 <= d) ns ds /\ zprod ds < 2 ^ 63) ->
  cum_ns_states_r ns = suffix_prods ns.
Proof.
  intros Hn (ds & HF & Hd). unfold cum_ns_states_r.
  assert (L : length (rev (removelast (cumprod 1 (1 :: rev ns)))) = length ns).
  { rewrite rev_length, removelast_len, cumprod_length. simpl. rewrite rev_length. lia. }
  apply (nth_ext _ _ 0 0).
  - rewrite L, suffix_prods_length. auto.
  - rewrite L. intros i Hi. rewrite suffix_prods_nth by auto.
    rewrite rev_nth by (rewrite removelast_len, cumprod_length; simpl; rewrite rev_length; lia).
    rewrite removelast_len, cumprod_length. simpl length. rewrite rev_length.
    rewrite removelast_nth by (rewrite cumprod_length; simpl; rewrite rev_length; lia).
    assert (F2 : Forall2 (fun n d => n <= d /\ 1 <= d) (1 :: rev ns) (1 :: rev ds)).
    { constructor; [lia|]. clear - HF. induction HF; simpl; auto. apply Forall2_app; auto. }
    rewrite cumprod_spec; try lia.
    + rewrite Z.mul_1_l. replace (S (length ns) - 1 - S i)%nat with (length ns - 1 - i)%nat by lia.
      simpl firstn. rewrite firstn_rev.
      replace (length ns - (length ns - 1 - i))%nat with (S i) by lia.
      rewrite <- (zprod_perm _ _ (Permutation_rev (skipn (S i) ns))) || idtac.
      change (zprod (1 :: rev (skipn (S i) ns))) with (1 * zprod (rev (skipn (S i) ns))).
      rewrite Z.mul_1_l. symmetry. apply zprod_perm, Permutation_rev.
    + constructor; [lia|]. apply Forall_rev; auto.
    + exists (1 :: rev ds). split; auto.
      change (zprod (1 :: rev ds)) with (1 * zprod (rev ds)). rewrite !Z.mul_1_l.
      rewrite <- (zprod_perm _ _ (Permutation_rev ds)). auto.
    + simpl. rewrite rev_length. lia.
Qed.

Lemma tens_f_length l es n :
  Forall2 factor_ok l es -> 0 <= n < zprod (map fst es) ->
  length (tens_f es n) = list_sum (map hsize l).
Proof.
  intros HF Hn. pose proof (tens_indexing _ _ HF) as IX.
  apply (ix_len _ _ _ _ IX). apply (ix_in _ _ _ _ IX). auto.
Qed.

Lemma tens_s2n l es n out :
  Forall2 factor_ok l es -> Forall sane l -> zprod (map local_dims l) < 2 ^ 63 ->
  0 <= n < zprod (map fst es) -> 0 <= out -> out + zprod (map fst es) <= 2 ^ 63 ->
  tensor_s2n_loop (map (fun hi => (hsize hi, states_to_numbers_ hi)) l)
                  (suffix_prods (map fst es)) (tens_f es n) out
  = Ok (out + n).
Proof.
  intros HF. revert n out. induction HF; intros n out HS Hd Hn Ho Hb.
  - unfold zprod in Hn; simpl in *. f_equal; lia.
  - inversion HS; subst. destruct y as [N f]. destruct H as [H Hb']. cbn [fst snd] in H, Hb'.
    cbn [map suffix_prods tens_f tensor_s2n_loop fst] in *.
    set (P := zprod (map fst l')) in *.
    assert (EZ : zprod (N :: map fst l') = N * P) by reflexivity. rewrite EZ in *.
    assert (EL : zprod (local_dims x :: map local_dims l) = local_dims x * zprod (map local_dims l)) by reflexivity.
    rewrite EL in Hd.
    pose proof (ix_pos _ _ _ _ (sp_ix _ _ _ _ H)) as HN.
    pose proof (zprod_nonneg _ (factor_nonneg _ _ HF)) as HP. fold P in HP.
    assert (0 < P) by nia. assert (0 < N) by nia.
    assert (Hdiv : 0 <= n / P < N).
    { split; [apply Z.div_pos; lia|]. apply Z.div_lt_upper_bound; lia. }
    pose proof (Z.mod_pos_bound n P ltac:(lia)) as Hmod.
    assert (Hlen : length (f (n / P)) = hsize x).
    { apply (ix_len _ _ _ _ (sp_ix _ _ _ _ H)), (ix_in _ _ _ _ (sp_ix _ _ _ _ H)); auto. }
    assert (F1 : forall t, firstn (hsize x) (f (n / P) ++ t) = f (n / P)).
    { intros t. rewrite firstn_app, Hlen, Nat.sub_diag. rewrite <- Hlen. rewrite firstn_all.
      simpl. apply app_nil_r. }
    assert (F2 : forall t, skipn (hsize x) (f (n / P) ++ t) = t).
    { intros t. rewrite skipn_app, Hlen, Nat.sub_diag. rewrite <- Hlen. rewrite skipn_all. auto. }
    cbv zeta. rewrite F1, F2, Hlen, Nat.eqb_refl. cbn [negb].
    rewrite (sp_s2n _ _ _ _ H) by auto. cbn [bind].
    pose proof (Z.div_mod n P ltac:(lia)) as DM.
    assert (n / P * P <= n) by nia.
    rewrite (wrap64_id (n / P * P)) by nia.
    rewrite wrap64_id by nia.
    pose proof (local_dims_pos _ H2).
    assert (0 <= zprod (map local_dims l)).
    { apply zprod_nonneg. rewrite Forall_map. eapply Forall_impl; [|exact H3].
      intros a Ha. pose proof (local_dims_pos _ Ha). lia. }
    assert (n / P * P + P <= N * P) by nia.
    rewrite IHHF; auto; try nia.
    f_equal. nia.
Qed.

(** ** The main theorem: every sane space *)
Definition ok_ex (h : hilbert) : Prop := exists e, factor_ok h e.

Lemma n2s_unfold_check h N n X :
  n_states h = Ok N -> 0 <= n < N ->
  (let? total := n_states h in if total <=? n then Err ValueError else X) = (X : res (list Z)).
Proof. intros E Hn. rewrite E. simpl. destruct (Z.leb_spec N n); [lia|]. auto. Qed.

Lemma homog_space_ok h ls N c :
  local_states h = Some ls -> hsize h = N -> constraint_fn h = c ->
  NoDup ls -> ls <> [] -> Z.of_nat (length ls) ^ Z.of_nat N <= max_states ->
  (n_states h = homog_n_states (local_states h) N (constraint_fn h)) ->
  (forall n, numbers_to_states h n =
     let? total := n_states h in if total <=? n then Err ValueError
     else homog_numbers_to_states (local_states h) N (constraint_fn h) n) ->
  (forall s, states_to_numbers_ h s = homog_states_to_numbers (local_states h) N (constraint_fn h) s) ->
  (forall s, homog_P ls N c s <-> config h s) ->
  local_dims h = Z.of_nat (length ls) ^ Z.of_nat N ->
  ok_ex h.
Proof.
  intros E1 E2 E3 Hnd Hne Hm Ens En2s Es2n EP Eld.
  destruct (homog_core ls N c Hnd Hne Hm) as (M & f & HM & IX & A & B & C).
  rewrite E1, E3 in Ens, En2s, Es2n.
  exists (M, f). split; [|simpl; lia]. simpl. constructor.
  - rewrite E2. eapply ix_iff; [|exact IX]. auto.
  - rewrite Ens. auto.
  - intros n Hn. rewrite En2s. rewrite (n2s_unfold_check h M); auto. rewrite Ens; auto.
  - intros n Hn. rewrite Es2n. auto.
Qed.

(** inversion of [config] *)
Lemma config_Fock_iff m N np s : config (Fock m true N np) s <->
  length s = N /\ (forall x, In x s -> 0 <= x <= m) /\
  (forall p id, np = Some (p, id) -> zsum s = p).
Proof.
  split.
  - intros C; inversion C; subst; auto.
  - intros (A & B & D). constructor; auto.
Qed.

Lemma config_Spin_iff s2 N t s : config (Spin s2 N t) s <->
  length s = N /\
  (forall x, In x s -> exists k, 0 <= k <= Z.of_nat s2 /\ x = - Z.of_nat s2 + 2 * k) /\
  (forall sz id, t = Some (sz, id) -> (inject_Z (zsum s) == 2 * sz)%Q).
Proof.
  split.
  - intros C; inversion C; subst; auto.
  - intros (A & B & D). constructor; auto.
Qed.

Lemma config_Qubit_iff N s : config (Qubit N) s <->
  length s = N /\ (forall x, In x s -> x = 0 \/ x = 1).
Proof.
  split.
  - intros C; inversion C; subst; auto.
  - intros (A & B). constructor; auto.
Qed.

Lemma config_Custom_iff ls N c s : config (Custom (Some ls) N c) s <->
  length s = N /\ (forall x, In x s -> In x ls) /\
  (forall f id, c = Some (f, id) -> f s = true).
Proof.
  split.
  - intros C; inversion C; subst; auto.
  - intros (A & B & D). constructor; auto.
Qed.

Lemma sane_ok h : sane h -> ok_ex h.
Proof.
  induction h using hilbert_nested_ind; intros S; inversion S; subst.
  - eapply homog_space_ok; try reflexivity.
    + apply zrange_NoDup.
    + intros E. apply (f_equal (@length Z)) in E. rewrite zrange_length in E. simpl in E. lia.
    + rewrite zrange_length. rewrite Z2Nat.id by lia. auto.
    + intros s. rewrite config_Fock_iff. unfold homog_P, is_word, constraint_fn. split.
      * intros [[A1 A2] A3]. repeat split; auto.
        -- apply A2, in_zrange in H. lia.
        -- apply A2, in_zrange in H. lia.
        -- intros p id ->. apply Z.eqb_eq in A3. auto.
      * intros (A1 & A2 & A3). split; [split; auto|].
        -- intros x Hx. apply in_zrange. specialize (A2 x Hx). lia.
        -- destruct np as [[p id]|]; auto. apply Z.eqb_eq. eauto.
    + simpl. rewrite zrange_length. rewrite Z2Nat.id by lia. auto.
  - eapply homog_space_ok; try reflexivity.
    + apply spin_ls_NoDup.
    + rewrite Nat.add_comm. simpl. discriminate.
    + rewrite map_length, seq_length. rewrite Nat2Z.inj_add. auto.
    + intros st. rewrite config_Spin_iff. unfold homog_P, is_word, constraint_fn. split.
      * intros [[A1 A2] A3]. split; [auto|]. split.
        -- intros x Hx. apply A2 in Hx. apply spin_ls_in in Hx. auto.
        -- intros sz id ->. apply Z.eqb_eq in A3. destruct (H3 _ _ eq_refl) as [m Em].
           rewrite (py_round_int _ _ Em) in A3. rewrite A3. symmetry. auto.
      * intros (A1 & A2 & A3). split; [split; auto|].
        -- intros x Hx. apply spin_ls_in; auto.
        -- destruct t as [[sz id]|]; auto. apply Z.eqb_eq.
           specialize (A3 _ _ eq_refl). symmetry. apply py_round_int. symmetry. auto.
    + simpl. rewrite map_length, seq_length. f_equal. lia.
  - eapply homog_space_ok; try reflexivity.
    + repeat constructor; simpl; intuition discriminate.
    + discriminate.
    + simpl length. auto.
    + intros st. rewrite config_Qubit_iff. unfold homog_P, is_word, constraint_fn. split.
      * intros [[A1 A2] A3]. split; auto. intros x Hx. apply A2 in Hx. simpl in Hx. intuition.
      * intros (A1 & A2). split; [split; auto|auto].
        intros x Hx. simpl. destruct (A2 x Hx); auto.
  - eapply homog_space_ok; try reflexivity; auto.
    intros st. rewrite config_Custom_iff. unfold homog_P, is_word, constraint_fn. split.
    + intros [[A1 A2] A3]. repeat split; auto. intros f id ->. auto.
    + intros (A1 & A2 & A3). split; [split; auto|].
      destruct c as [[f id]|]; auto. eapply A3; eauto.
  - assert (HX : exists es, Forall2 factor_ok l es).
    { clear S H2. induction H1; [exists []; constructor|]. inversion H; subst.
      destruct (IHForall H5) as [es Hes]. destruct (H4 H0) as [e He].
      exists (e :: es). constructor; auto. }
    destruct HX as [es HF].
    pose proof (factor_nonneg _ _ HF) as Hnn. pose proof (zprod_nonneg _ Hnn) as Hz.
    pose proof (factor_bound _ _ HF H1) as Hb. pose proof (factor_dims _ _ HF H1) as Hd.
    assert (ENS : n_states (Tensor l) = Ok (zprod (map fst es))).
    { simpl. rewrite (sequence_n_states _ _ HF). simpl. rewrite fold_left_wrap; auto; try lia.
      - f_equal; lia.
      - exists (map local_dims l). split; auto. lia. }
    exists (zprod (map fst es), tens_f es). split; [|auto]. cbn [fst snd]. constructor.
    + apply tens_indexing; auto.
    + auto.
    + intros n Hn. cbn [numbers_to_states]. rewrite (n2s_unfold_check _ _ n _ ENS Hn).
      rewrite (tens_n2s_fold l es n HF H1) by lia. cbn [bind snd]. rewrite Z.mod_small by lia. auto.
    + intros n Hn. cbn [states_to_numbers_]. rewrite (sequence_n_states _ _ HF). cbn [bind].
      rewrite cum_ns_states_r_spec; eauto. rewrite tens_s2n; auto; lia.
  - destruct (IHh H0) as [[N f] [HO HB]]. cbn [fst snd] in HO, HB.
    pose proof (sp_ix _ _ _ _ HO) as IX. pose proof (ix_pos _ _ _ _ IX) as HN.
    pose proof (local_dims_pos _ H0) as Hld.
    assert (ENS : n_states (Doubled h) = Ok (N * N)).
    { simpl. rewrite (sp_ns _ _ _ _ HO). simpl. rewrite wrap64_id; auto. nia. }
    exists (N * N, fun n => f (n / N) ++ f (n mod N)). split; [|simpl; nia]. cbn [fst snd].
    constructor.
    + simpl hsize. rewrite Nat.add_0_r. eapply ix_iff; [|apply (indexing_prod _ _ _ _ _ _ _ _ IX IX)].
      intros s. simpl. split.
      * intros (a & b & -> & Ha & Hb). constructor; auto.
      * intros H. inversion H; subst. eauto.
    + auto.
    + intros n Hn. cbn [numbers_to_states]. rewrite (n2s_unfold_check _ _ n _ ENS Hn).
      rewrite (sp_ns _ _ _ _ HO). cbn [bind].
      assert (0 < N) by nia.
      rewrite (sp_n2s _ _ _ _ HO) by (split; [apply Z.div_pos; lia|apply Z.div_lt_upper_bound; lia]).
      cbn [bind]. rewrite (sp_n2s _ _ _ _ HO) by (apply Z.mod_pos_bound; lia). auto.
    + intros n Hn. cbn [states_to_numbers_]. rewrite (sp_ns _ _ _ _ HO). cbn [bind].
      assert (0 < N) by nia.
      assert (A : 0 <= n / N < N) by (split; [apply Z.div_pos; lia|apply Z.div_lt_upper_bound; lia]).
      pose proof (Z.mod_pos_bound n N ltac:(lia)) as B.
      assert (La : length (f (n / N)) = hsize h) by (apply (ix_len _ _ _ _ IX), (ix_in _ _ _ _ IX); auto).
      assert (Lb : length (f (n mod N)) = hsize h) by (apply (ix_len _ _ _ _ IX), (ix_in _ _ _ _ IX); auto).
      replace (firstn (hsize h) (f (n / N) ++ f (n mod N))) with (f (n / N)).
      2:{ rewrite firstn_app, La, Nat.sub_diag. rewrite <- La. rewrite firstn_all. simpl. rewrite app_nil_r. auto. }
      replace (skipn (hsize h) (f (n / N) ++ f (n mod N))) with (f (n mod N)).
      2:{ rewrite skipn_app, La, Nat.sub_diag. rewrite <- La. rewrite skipn_all. auto. }
      replace (firstn (hsize h) (f (n mod N))) with (f (n mod N)).
      2:{ rewrite <- Lb. rewrite firstn_all. auto. }
      rewrite (sp_s2n _ _ _ _ HO) by auto. cbn [bind].
      rewrite (sp_s2n _ _ _ _ HO) by auto. cbn [bind].
      pose proof (Z.div_mod n N ltac:(lia)).
      rewrite (wrap64_id (n / N * N)) by nia. rewrite wrap64_id by nia. f_equal. nia.
Qed.

(** ** Consequences in terms of the public functions *)
Lemma s2n_public h s : length s = hsize h -> states_to_numbers h s = states_to_numbers_ h s.
Proof. intros E. unfold states_to_numbers. rewrite E, Nat.eqb_refl. auto. Qed.

Lemma round_trip_numbers h N : sane h -> n_states h = Ok N ->
  forall n, 0 <= n < N ->
  exists s, numbers_to_states h n = Ok s /\ config h s /\ states_to_numbers h s = Ok n.
Proof.
  intros S E n Hn. destruct (sane_ok h S) as [[M f] [H _]]. simpl in H.
  rewrite (sp_ns _ _ _ _ H) in E. inversion E; subst.
  pose proof (ix_in _ _ _ _ (sp_ix _ _ _ _ H) n Hn) as C.
  exists (f n). split; [apply (sp_n2s _ _ _ _ H); auto|]. split; auto.
  rewrite s2n_public; [apply (sp_s2n _ _ _ _ H); auto|]. apply (ix_len _ _ _ _ (sp_ix _ _ _ _ H)); auto.
Qed.

Lemma round_trip_states h N : sane h -> n_states h = Ok N ->
  forall s, config h s ->
  exists n, 0 <= n < N /\ states_to_numbers h s = Ok n /\ numbers_to_states h n = Ok s.
Proof.
  intros S E s C. destruct (sane_ok h S) as [[M f] [H _]]. simpl in H.
  rewrite (sp_ns _ _ _ _ H) in E. inversion E; subst.
  destruct (ix_onto _ _ _ _ (sp_ix _ _ _ _ H) s C) as (n & Hn & <-).
  exists n. split; auto. split; [|apply (sp_n2s _ _ _ _ H); auto].
  rewrite s2n_public; [apply (sp_s2n _ _ _ _ H); auto|]. apply (ix_len _ _ _ _ (sp_ix _ _ _ _ H)); auto.
Qed.

Lemma sane_n_states h : sane h -> exists N, n_states h = Ok N /\ 0 <= N <= local_dims h.
Proof.
  intros S. destruct (sane_ok h S) as [[M f] [H B]]. simpl in *. exists M.
  split; [apply (sp_ns _ _ _ _ H)|]. split; auto. apply (ix_pos _ _ _ _ (sp_ix _ _ _ _ H)).
Qed.

Lemma StronglySorted_map_zrange (f : Z -> list Z) N :
  (forall n m, 0 <= n -> n < m -> m < N -> lex_lt (f n) (f m)) ->
  StronglySorted lex_lt (map f (zrange N)).
Proof.
  intros H. assert (F : Forall (fun x => 0 <= x < N) (zrange N)).
  { apply Forall_forall. intros x Hx. apply in_zrange in Hx. auto. }
  pose proof (zrange_sorted N) as S. revert F. induction S; intros F; simpl; constructor.
  - apply IHS. inversion F; auto.
  - inversion F; subst. rewrite Forall_map. rewrite Forall_forall in *. intros x Hx.
    specialize (H4 x Hx). specialize (H0 x Hx). apply H; lia.
Qed.

Lemma all_states_spec h : sane h ->
  exists L, all_states h = Ok L /\ StronglySorted lex_lt L /\
            (forall s, In s L <-> config h s) /\ n_states h = Ok (Z.of_nat (length L)).
Proof.
  intros S. destruct (sane_ok h S) as [[M f] [H _]]. simpl in H.
  pose proof (sp_ix _ _ _ _ H) as IX. pose proof (ix_pos _ _ _ _ IX).
  exists (map f (zrange M)). split; [|split; [|split]].
  - unfold all_states. rewrite (sp_ns _ _ _ _ H). simpl. apply sequence_ok.
    intros x Hx. apply in_zrange in Hx. apply (sp_n2s _ _ _ _ H). auto.
  - apply StronglySorted_map_zrange. apply (ix_mono _ _ _ _ IX).
  - intros s. rewrite in_map_iff. split.
    + intros (n & <- & Hn). apply in_zrange in Hn. apply (ix_in _ _ _ _ IX); auto.
    + intros C. destruct (ix_onto _ _ _ _ IX s C) as (n & Hn & <-). exists n. split; auto.
      apply in_zrange; auto.
  - rewrite map_length, zrange_length, Z2Nat.id by lia. apply (sp_ns _ _ _ _ H).
Qed.

(** the index is the rank in lexicographic order *)
Lemma index_monotone h a b n m : sane h -> config h a -> config h b ->
  states_to_numbers h a = Ok n -> states_to_numbers h b = Ok m ->
  (n < m <-> lex_lt a b).
Proof.
  intros S Ca Cb Ea Eb. destruct (sane_ok h S) as [[M f] [H _]]. simpl in H.
  pose proof (sp_ix _ _ _ _ H) as IX.
  rewrite s2n_public in Ea by (apply (ix_len _ _ _ _ IX); auto).
  rewrite s2n_public in Eb by (apply (ix_len _ _ _ _ IX); auto).
  destruct (ix_onto _ _ _ _ IX a Ca) as (n' & Hn & <-).
  destruct (ix_onto _ _ _ _ IX b Cb) as (m' & Hm & <-).
  rewrite (sp_s2n _ _ _ _ H) in Ea by auto. rewrite (sp_s2n _ _ _ _ H) in Eb by auto.
  inversion Ea; inversion Eb; subst. split.
  - intros. apply (ix_mono _ _ _ _ IX); lia.
  - intros L. destruct (Z.lt_trichotomy n m) as [Q|[Q|Q]]; auto; exfalso.
    + subst. apply (lex_lt_irrefl _ L).
    + assert (lex_lt (f m) (f n)) by (apply (ix_mono _ _ _ _ IX); lia).
      revert L H0. generalize (f n) (f m). clear. intros a b L; revert L.
      induction 1; intros Q; inversion Q; subst; try lia; auto.
Qed.

Lemma doubled_index h N a b na nb : sane (Doubled h) -> n_states h = Ok N ->
  config h a -> config h b -> states_to_numbers h a = Ok na -> states_to_numbers h b = Ok nb ->
  n_states (Doubled h) = Ok (N * N) /\
  states_to_numbers (Doubled h) (a ++ b) = Ok (na * N + nb) /\
  numbers_to_states (Doubled h) (na * N + nb) = Ok (a ++ b).
Proof.
  intros S E Ca Cb Ea Eb. inversion S; subst.
  destruct (sane_ok h H0) as [[M f] [H HB]]. simpl in H, HB.
  pose proof (sp_ix _ _ _ _ H) as IX. pose proof (ix_pos _ _ _ _ IX).
  rewrite (sp_ns _ _ _ _ H) in E. inversion E; subst M.
  assert (La : length a = hsize h) by (apply (ix_len _ _ _ _ IX); auto).
  assert (Lb : length b = hsize h) by (apply (ix_len _ _ _ _ IX); auto).
  rewrite s2n_public in Ea, Eb by auto.
  destruct (ix_onto _ _ _ _ IX a Ca) as (n & Hn & <-).
  destruct (ix_onto _ _ _ _ IX b Cb) as (m & Hm & <-).
  pose proof Ea as Ea'. pose proof Eb as Eb'.
  rewrite (sp_s2n _ _ _ _ H) in Ea by auto. rewrite (sp_s2n _ _ _ _ H) in Eb by auto.
  inversion Ea; inversion Eb; subst.
  pose proof (local_dims_pos _ H0).
  assert (ENS : n_states (Doubled h) = Ok (N * N)).
  { simpl. rewrite (sp_ns _ _ _ _ H). simpl. rewrite wrap64_id; auto. nia. }
  split; auto. split.
  - unfold states_to_numbers. rewrite app_length, La, Lb.
    replace (hsize (Doubled h)) with (hsize h + hsize h)%nat by (simpl; lia).
    rewrite Nat.eqb_refl. cbn [states_to_numbers_]. rewrite (sp_ns _ _ _ _ H). cbn [bind].
    replace (firstn (hsize h) (f na ++ f nb)) with (f na).
    2:{ rewrite firstn_app, La, Nat.sub_diag. rewrite <- La. rewrite firstn_all. simpl. rewrite app_nil_r. auto. }
    replace (skipn (hsize h) (f na ++ f nb)) with (f nb).
    2:{ rewrite skipn_app, La, Nat.sub_diag. rewrite <- La. rewrite skipn_all. auto. }
    replace (firstn (hsize h) (f nb)) with (f nb).
    2:{ rewrite <- Lb. rewrite firstn_all. auto. }
    rewrite Ea', Eb'. cbn [bind]. rewrite (wrap64_id (na * N)) by nia.
    rewrite wrap64_id by nia. f_equal. lia.
  - cbn [numbers_to_states]. rewrite (n2s_unfold_check _ _ _ _ ENS) by nia.
    rewrite (sp_ns _ _ _ _ H). cbn [bind].
    rewrite Z.div_add_l by lia. rewrite Z.div_small by lia. rewrite Z.add_0_r.
    rewrite Z.add_comm, Z.mod_add by lia. rewrite Z.mod_small by lia.
    rewrite (sp_n2s _ _ _ _ H) by auto. cbn [bind]. rewrite (sp_n2s _ _ _ _ H) by auto. auto.
Qed.

(** Tensor products: first factor against the rest *)
Lemma tensor_index h l N M a b na nb : sane (Tensor (h :: l)) ->
  n_states h = Ok N -> n_states (Tensor l) = Ok M ->
  config h a -> config (Tensor l) b ->
  states_to_numbers h a = Ok na -> states_to_numbers (Tensor l) b = Ok nb ->
  n_states (Tensor (h :: l)) = Ok (N * M) /\
  states_to_numbers (Tensor (h :: l)) (a ++ b) = Ok (na * M + nb) /\
  numbers_to_states (Tensor (h :: l)) (na * M + nb) = Ok (a ++ b).
Proof.
  intros S EN EM Ca Cb Ea Eb. inversion S; subst. inversion H0; subst.
  assert (HX : exists es, Forall2 factor_ok l es).
  { clear - H4. induction H4; [exists []; constructor|]. destruct IHForall as [es Hes].
    destruct (sane_ok x H) as [e He]. exists (e :: es); constructor; auto. }
  destruct HX as [es HF]. destruct (sane_ok h H3) as [[N' f] HO]. pose proof HO as [HO' HB].
  cbn [fst snd] in *.
  assert (St : sane (Tensor l)).
  { constructor; auto. pose proof (local_dims_pos _ H3).
    change (zprod (map local_dims (h :: l))) with (local_dims h * zprod (map local_dims l)) in H1.
    assert (0 <= zprod (map local_dims l)).
    { apply zprod_nonneg. rewrite Forall_map. eapply Forall_impl; [|exact H4].
      intros x Hx. pose proof (local_dims_pos _ Hx). lia. }
    nia. }
  rewrite (sp_ns _ _ _ _ HO') in EN. inversion EN; subst N'.
  pose proof (factor_nonneg _ _ HF) as Hnn. pose proof (zprod_nonneg _ Hnn) as Hz.
  assert (ENS : forall l es, Forall2 factor_ok l es -> sane (Tensor l) -> n_states (Tensor l) = Ok (zprod (map fst es))).
  { clear. intros l es HF S. inversion S; subst. simpl. rewrite (sequence_n_states _ _ HF).
    simpl. rewrite fold_left_wrap; [f_equal; lia|lia|eapply factor_nonneg; eauto|].
    exists (map local_dims l). split; [apply factor_dims; auto|lia]. }
  rewrite (ENS l es HF St) in EM. inversion EM; subst M. set (M := zprod (map fst es)) in *.
  assert (HF' : Forall2 factor_ok (h :: l) ((N, f) :: es)) by (constructor; auto).
  assert (EZ : zprod (map fst ((N, f) :: es)) = N * M) by reflexivity.
  pose proof (ENS _ _ HF' S) as ENT. rewrite EZ in ENT.
  pose proof (sp_ix _ _ _ _ HO') as IX. pose proof (tens_indexing _ _ HF) as IXT.
  destruct (ix_onto _ _ _ _ IX a Ca) as (n & Hn & <-).
  destruct (ix_onto _ _ _ _ IXT b Cb) as (m & Hm & <-). fold M in Hm.
  rewrite s2n_public in Ea by (apply (ix_len _ _ _ _ IX); auto).
  rewrite s2n_public in Eb by (apply (ix_len _ _ _ _ IXT); auto).
  rewrite (sp_s2n _ _ _ _ HO') in Ea by auto.
  inversion Ea; subst na.
  assert (Eb' : states_to_numbers_ (Tensor l) (tens_f es m) = Ok m).
  { cbn [states_to_numbers_]. rewrite (sequence_n_states _ _ HF). cbn [bind].
    inversion St; subst. pose proof (factor_bound _ _ HF H4).
    rewrite cum_ns_states_r_spec by (auto; exists (map local_dims l); split; auto; apply factor_dims; auto).
    rewrite tens_s2n; auto; fold M; lia. }
  rewrite Eb' in Eb. inversion Eb; subst nb.
  assert (Hr : 0 <= n * M + m < N * M) by nia.
  assert (TF : tens_f ((N, f) :: es) (n * M + m) = f n ++ tens_f es m).
  { cbn [tens_f]. fold M. rewrite Z.div_add_l by lia. rewrite Z.div_small by lia. rewrite Z.add_0_r.
    rewrite Z.add_comm, Z.mod_add by lia. rewrite Z.mod_small by lia. auto. }
  split; [auto|]. rewrite <- TF. split.
  - rewrite s2n_public.
    + cbn [states_to_numbers_]. rewrite (sequence_n_states _ _ HF'). cbn [bind].
      pose proof (factor_bound _ _ HF' H0).
      rewrite cum_ns_states_r_spec by (eauto using factor_nonneg; exists (map local_dims (h :: l)); split; auto; apply factor_dims; auto).
      rewrite tens_s2n; auto; rewrite EZ in *; lia.
    + rewrite (tens_f_length _ _ _ HF') by (rewrite EZ; lia). auto.
  - cbn [numbers_to_states]. rewrite (n2s_unfold_check _ _ _ _ ENT Hr).
    rewrite (tens_n2s_fold _ _ _ HF' H0) by (rewrite EZ; nia). cbn [bind snd].
    rewrite EZ. rewrite Z.mod_small by lia. auto.
Qed.

(** ** Error behaviour *)
Lemma too_large_rejected h N n : n_states h = Ok N -> N <= n -> numbers_to_states h n = Err ValueError.
Proof.
  intros E Hn. destruct h; cbn [numbers_to_states]; rewrite E; cbn [bind];
    destruct (Z.leb_spec N n); auto; lia.
Qed.

Lemma wrong_shape_rejected h s : length s <> hsize h -> states_to_numbers h s = Err ValueError.
Proof.
  intros E. unfold states_to_numbers. destruct (Nat.eqb_spec (length s) (hsize h)); congruence.
Qed.

(** whatever the integer, a returned value is a configuration of the space *)
Lemma homog_neg ls N c n s : NoDup ls -> ls <> [] ->
  Z.of_nat (length ls) ^ Z.of_nat N <= max_states -> n < 0 ->
  homog_numbers_to_states (Some ls) N c n = Ok s ->
  exists n' M, homog_n_states (Some ls) N c = Ok M /\ 0 <= n' < M /\
               homog_numbers_to_states (Some ls) N c n' = Ok s.
Proof.
  intros Hnd Hne Hsz Hn E. 
  unfold homog_numbers_to_states, homog_n_states in *.
  unfold homog_index in *.
  destruct (Z.leb_spec (Z.of_nat (length ls) ^ Z.of_nat N) max_states); [|lia].
  destruct c as [cf|]; cbn [bind fst snd] in *.
  - match type of E with context [filter ?g ?z] => set (bare := filter g z) in * end.
    destruct (Z.ltb_spec n 0); [|lia].
    destruct (Z.leb_spec 0 (n + Z.of_nat (length bare))); [|discriminate].
    destruct (Z.ltb_spec (n + Z.of_nat (length bare)) (Z.of_nat (length bare))); [|discriminate].
    exists (n + Z.of_nat (length bare)), (Z.of_nat (length bare)). split; [auto|]. split; [lia|].
    destruct (Z.ltb_spec (n + Z.of_nat (length bare)) 0); [lia|].
    destruct (Z.leb_spec 0 (n + Z.of_nat (length bare))); [|lia].
    destruct (Z.ltb_spec (n + Z.of_nat (length bare)) (Z.of_nat (length bare))); [|lia].
    auto.
  - exists 0, (Z.of_nat (length ls) ^ Z.of_nat N). unfold hi_n_states. rewrite np_sort_length.
    split; [auto|]. split.
    + split; [lia|]. apply Z.pow_pos_nonneg; [|lia]. destruct ls; [congruence|simpl; lia].
    + unfold hi_number_to_state in *. rewrite <- E.
      destruct N; cbn [hi_digits_loop]; destruct (Z.ltb_spec 0 n); try lia; auto.
Qed.

Lemma sane_homog_data h : sane h ->
  (exists l, h = Tensor l) \/ (exists p, h = Doubled p) \/
  exists ls N c, local_states h = Some ls /\ hsize h = N /\ constraint_fn h = c /\
    NoDup ls /\ ls <> [] /\ Z.of_nat (length ls) ^ Z.of_nat N <= max_states /\
    n_states h = homog_n_states (Some ls) N c /\
    (forall n, numbers_to_states h n =
       let? total := n_states h in if total <=? n then Err ValueError
       else homog_numbers_to_states (Some ls) N c n) /\
    (forall s, states_to_numbers_ h s = homog_states_to_numbers (Some ls) N c s).
Proof.
  intros S. destruct S; [right; right|right; right|right; right|right; right|eauto|eauto].
  - exists (zrange (m + 1)), N, (constraint_fn (Fock m true N np)).
    repeat split; auto.
    + apply zrange_NoDup.
    + intros E. apply (f_equal (@length Z)) in E. rewrite zrange_length in E. simpl in E. lia.
    + rewrite zrange_length. rewrite Z2Nat.id by lia. auto.
  - eexists _, N, (constraint_fn (Spin s2 N tsz)). split; [reflexivity|].
    repeat split; auto.
    + apply spin_ls_NoDup.
    + rewrite Nat.add_comm. simpl. discriminate.
    + rewrite map_length, seq_length. rewrite Nat2Z.inj_add. auto.
  - exists [0; 1], N, None. repeat split; auto.
    + repeat constructor; simpl; intuition discriminate.
    + discriminate.
  - exists ls, N, (constraint_fn (Custom (Some ls) N c)). repeat split; auto.
Qed.

Lemma any_int_config h : sane h -> forall n s, numbers_to_states h n = Ok s -> config h s.
Proof.
  induction h using hilbert_nested_ind; intros S n st E;
  destruct (sane_ok _ S) as [[M ff] [HO HB]]; cbn [fst snd] in HO, HB;
  pose proof (sp_ix _ _ _ _ HO) as IX;
  (destruct (Z.le_gt_cases M n) as [G|G];
   [rewrite (too_large_rejected _ _ _ (sp_ns _ _ _ _ HO) G) in E; discriminate|]);
  (destruct (Z.le_gt_cases 0 n) as [G0|G0];
   [rewrite (sp_n2s _ _ _ _ HO) in E by lia; inversion E; subst; apply (ix_in _ _ _ _ IX); lia|]).
  1-4: destruct (sane_homog_data _ S) as [[? ?]|[[? ?]|(ls1 & N1 & c1 & E1 & E2 & E3 & Hnd & Hne & Hsz & Ens & En2s & _)]];
    try discriminate;
    rewrite En2s in E; rewrite (sp_ns _ _ _ _ HO) in E; cbn [bind] in E;
    destruct (Z.leb_spec M n); [lia|];
    destruct (homog_neg _ _ _ _ _ Hnd Hne Hsz G0 E) as (n' & M' & A & B & C);
    rewrite <- Ens in A; rewrite (sp_ns _ _ _ _ HO) in A; inversion A; subst M';
    pose proof (sp_n2s _ _ _ _ HO n' B) as D; rewrite En2s in D;
    rewrite (sp_ns _ _ _ _ HO) in D; cbn [bind] in D;
    destruct (Z.leb_spec M n'); [lia|]; rewrite C in D; inversion D; subst;
    apply (ix_in _ _ _ _ IX); auto.
  - cbn [numbers_to_states] in E. rewrite (sp_ns _ _ _ _ HO) in E. cbn [bind] in E.
    destruct (Z.leb_spec M n); [lia|]. inversion S; subst. clear S HO HB IX G G0 H0 H3.
    match type of E with (let? r := ?F in _) = _ => destruct F as [[rem out]|] eqn:EF; [|discriminate] end.
    cbn [bind snd] in E. inversion E; subst. clear E.
    revert H2 H rem st EF. induction l; intros H2 H rem st EF.
    + simpl in EF. inversion EF; subst. constructor.
    + cbn [fold_right] in EF.
      match type of EF with (let? r := ?F in _) = _ => destruct F as [[rem' out']|] eqn:EF'; [|discriminate] end.
      cbn [bind fst snd] in EF. destruct (n_states a) as [d|] eqn:Ed; [|discriminate]. cbn [bind] in EF.
      destruct (numbers_to_states a (rem' mod d)) as [blk|] eqn:Eb; [|discriminate].
      cbn [bind] in EF. inversion EF; subst. inversion H2; inversion H; subst.
      constructor; eauto.
  - cbn [numbers_to_states] in E. rewrite (sp_ns _ _ _ _ HO) in E. cbn [bind] in E.
    destruct (Z.leb_spec M n); [lia|]. inversion S; subst.
    destruct (n_states h) as [d|] eqn:Ed; [|discriminate]. cbn [bind] in E.
    destruct (numbers_to_states h (n / d)) eqn:Ea; [|discriminate]. cbn [bind] in E.
    destruct (numbers_to_states h (n mod d)) eqn:Eb; [|discriminate]. cbn [bind] in E.
    inversion E; subst. constructor; eauto.
Qed.

(** What states_to_numbers does with a configuration of local values that violates the
    constraint: it returns the rank it would have, or raises if it is past the end. *)
Lemma searchsorted_len_gt l x : StronglySorted Z.lt l -> (length l <= searchsorted l x)%nat ->
  forall y, In y l -> y < x.
Proof.
  intros S H y Hy. apply (In_nth _ _ 0) in Hy. destruct Hy as (i & Hi & <-).
  apply searchsorted_spec_lt; auto. lia.
Qed.

Lemma violating_state ls N cf s :
  NoDup ls -> ls <> [] -> Z.of_nat (length ls) ^ Z.of_nat N <= max_states ->
  is_word ls N s ->
  (exists n t, homog_states_to_numbers (Some ls) N (Some cf) s = Ok n /\ 0 <= n /\
     homog_numbers_to_states (Some ls) N (Some cf) n = Ok t /\ cf t = true /\ is_word ls N t /\
     (t = s \/ lex_lt s t) /\
     (forall u, is_word ls N u -> cf u = true -> lex_lt u t -> lex_lt u s)) \/
  (homog_states_to_numbers (Some ls) N (Some cf) s = Err RuntimeError /\
   forall u, is_word ls N u -> cf u = true -> lex_lt u s).
Proof.
  intros Hnd Hne Hsz Hw.
  set (sl := np_sort ls).
  assert (Hsl : StronglySorted Z.lt sl) by (apply np_sort_strict; auto).
  assert (Hlen : length sl = length ls) by apply np_sort_length.
  assert (Hsne : sl <> []) by (intros E; rewrite E in Hlen; destruct ls; simpl in *; congruence).
  pose proof (indexing_word sl N Hsl) as IW. rewrite Hlen in IW.
  assert (EqP : forall s, is_word sl N s <-> is_word ls N s).
  { intros u. unfold is_word. split; intros [H1 H2]; split; auto; intros x Hx;
      apply np_sort_in; auto. }
  set (bare := filter (fun i => cf (word sl N i)) (zrange (Z.of_nat (length ls) ^ Z.of_nat N))).
  assert (EI : homog_index (Some ls) N (Some cf) = Ok (sl, bare)).
  { unfold homog_index. destruct (Z.leb_spec (Z.of_nat (length ls) ^ Z.of_nat N) max_states); [|lia].
    fold sl. f_equal. f_equal. unfold hi_n_states. rewrite Hlen. apply filter_ext_in.
    intros i Hi. apply in_zrange in Hi. rewrite number_to_state_word; auto.
    rewrite Hlen; auto. }
  assert (Hbs : StronglySorted Z.lt bare) by (apply StronglySorted_filter, zrange_sorted).
  assert (Hbin : forall i, In i bare <-> (0 <= i < Z.of_nat (length ls) ^ Z.of_nat N /\ cf (word sl N i) = true)).
  { intros. unfold bare. rewrite filter_In, in_zrange. tauto. }
  apply EqP in Hw. destruct (ix_onto _ _ _ _ IW s Hw) as (k & Hk & <-).
  unfold homog_states_to_numbers. rewrite EI. cbn [bind fst snd].
  rewrite state_to_number_word by (try rewrite Hlen; auto).
  assert (Tr : forall u, is_word ls N u -> cf u = true -> exists i, In i bare /\ u = word sl N i).
  { intros u Hu Hc. apply EqP in Hu. destruct (ix_onto _ _ _ _ IW u Hu) as (i & Hi & <-).
    exists i. split; auto. apply Hbin; auto. }
  destruct (Nat.leb_spec (length bare) (searchsorted bare k)).
  - right. split; auto. intros u Hu Hc. destruct (Tr u Hu Hc) as (i & Hi & ->).
    pose proof (searchsorted_len_gt _ _ Hbs H _ Hi). apply Hbin in Hi.
    apply (ix_mono _ _ _ _ IW); lia.
  - left. set (p := searchsorted bare k) in *.
    assert (Hp : In (nth p bare 0) bare) by (apply nth_In; auto).
    pose proof Hp as Hp'. apply Hbin in Hp'. destruct Hp' as [Hp1 Hp2].
    exists (Z.of_nat p), (word sl N (nth p bare 0)). split; auto. split; [lia|]. split; [|split; [|split; [|split]]]; auto.
    + unfold homog_numbers_to_states. rewrite EI. cbn [bind fst snd].
      destruct (Z.ltb_spec (Z.of_nat p) 0); [lia|]. destruct (Z.leb_spec 0 (Z.of_nat p)); [|lia].
      destruct (Z.ltb_spec (Z.of_nat p) (Z.of_nat (length bare))); [|lia]. cbn [andb].
      rewrite Nat2Z.id. apply number_to_state_word; auto. rewrite Hlen; auto.
    + apply EqP. apply (ix_in _ _ _ _ IW); auto.
    + assert (~ nth p bare 0 < k).
      { rewrite <- (searchsorted_spec_lt bare k Hbs p 0 H). fold p. lia. }
      destruct (Z.eq_dec (nth p bare 0) k) as [->|]; auto. right. apply (ix_mono _ _ _ _ IW); lia.
    + intros u Hu Hc Hlt. destruct (Tr u Hu Hc) as (i & Hi & ->).
      apply (In_nth _ _ 0) in Hi. destruct Hi as (j & Hj & <-).
      assert (Hjp : (j < p)%nat).
      { destruct (Nat.lt_trichotomy j p) as [Q|[Q|Q]]; auto; exfalso.
        - subst. apply (lex_lt_irrefl _ Hlt).
        - pose proof (StronglySorted_nth _ bare 0 p j Hbs ltac:(lia)) as L.
          assert (Hj' : In (nth j bare 0) bare) by (apply nth_In; auto). apply Hbin in Hj'.
          assert (lex_lt (word sl N (nth p bare 0)) (word sl N (nth j bare 0))) by (apply (ix_mono _ _ _ _ IW); lia).
          revert Hlt H0. generalize (word sl N (nth p bare 0)) (word sl N (nth j bare 0)). clear.
          intros a b L; revert L. induction 1; intros Q; inversion Q; subst; try lia; auto. }
      assert (nth j bare 0 < k) by (apply searchsorted_spec_lt; auto).
      assert (Hj' : In (nth j bare 0) bare) by (apply nth_In; auto). apply Hbin in Hj'.
      apply (ix_mono _ _ _ _ IW); lia.
Qed.

(** Strictly sorted lists with the same elements are equal. *)
Lemma lex_lt_asym a b : lex_lt a b -> lex_lt b a -> False.
Proof. induction 1; intros Q; inversion Q; subst; try lia; auto. Qed.

Lemma lex_sorted_unique L1 L2 :
  StronglySorted lex_lt L1 -> StronglySorted lex_lt L2 ->
  (forall s, In s L1 <-> In s L2) -> L1 = L2.
Proof.
  intros S1; revert L2; induction S1 as [|a L1 S1 IH F1]; intros L2 S2 H.
  - destruct L2; auto. exfalso. apply (H l). left; auto.
  - destruct S2 as [|b L2 S2 F2].
    + exfalso. apply (H a). left; auto.
    + rewrite Forall_forall in F1, F2.
      assert (a = b).
      { destruct (proj1 (H a) (or_introl eq_refl)) as [E|E]; auto.
        destruct (proj2 (H b) (or_introl eq_refl)) as [E'|E']; auto.
        exfalso. eapply lex_lt_asym; eauto. }
      subst b. f_equal. apply IH; auto. intros s. split; intros Hs.
      * destruct (proj1 (H s) (or_intror Hs)) as [<-|]; auto.
        exfalso. apply (lex_lt_irrefl a). auto.
      * destruct (proj2 (H s) (or_intror Hs)) as [<-|]; auto.
        exfalso. apply (lex_lt_irrefl a). auto.
Qed.

Lemma constrained_is_filter h h0 p L L0 :
  sane h -> sane h0 -> (forall s, config h s <-> config h0 s /\ p s = true) ->
  all_states h = Ok L -> all_states h0 = Ok L0 -> L = filter p L0.
Proof.
  intros S S0 E HL HL0.
  destruct (all_states_spec h S) as (A & EA & SA & IA & _).
  destruct (all_states_spec h0 S0) as (B & EB & SB & IB & _).
  rewrite HL in EA. rewrite HL0 in EB. inversion EA; inversion EB; subst.
  apply lex_sorted_unique; auto.
  - apply StronglySorted_filter; auto.
  - intros s. rewrite filter_In, IA, IB. apply E.
Qed.
