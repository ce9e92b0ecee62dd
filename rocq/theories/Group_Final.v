(** Proofs behind C28 and C29. *)
From Coq Require Import List Arith Bool Permutation Sorted Lia.
From Verif Require Import Base BaseFacts Group_Model Group_Spec Group_Proofs.
Import ListNotations.
Open Scope nat_scope.

(** ** np.unique *)
Lemma lex_ltb_irrefl a : lex_ltb a a = false.
Proof. induction a; cbn [lex_ltb]; auto. now rewrite Nat.ltb_irrefl. Qed.
Lemma lex_ltb_trans a b c : lex_ltb a b = true -> lex_ltb b c = true -> lex_ltb a c = true.
Proof.
  revert b c; induction a as [|x a IH]; intros [|y b] [|z c]; cbn [lex_ltb]; try easy.
  destruct (x <? y) eqn:E1; destruct (y <? z) eqn:E2; destruct (x <? z) eqn:E3;
    destruct (y <? x) eqn:E4; destruct (z <? y) eqn:E5; destruct (z <? x) eqn:E6;
    rewrite ?Nat.ltb_lt, ?Nat.ltb_ge in *; try easy; try lia.
  apply IH.
Qed.
Lemma lex_ltb_total a b : lex_ltb a b = false -> a <> b -> lex_ltb b a = true.
Proof.
  revert b; induction a as [|x a IH]; intros [|y b]; cbn [lex_ltb]; try easy.
  destruct (x <? y) eqn:E1; [easy|]. destruct (y <? x) eqn:E2; [easy|].
  rewrite Nat.ltb_ge in *. assert (x = y) by lia; subst.
  intros H N. apply IH; auto. congruence.
Qed.

Lemma uinsert_in x l z : In z (uinsert x l) <-> z = x \/ In z l.
Proof.
  induction l as [|y l IH]; cbn; [intuition|].
  destruct (nlist_eqb x y) eqn:E.
  - apply nlist_eqb_eq in E; subst. cbn. intuition.
  - destruct (lex_ltb x y); cbn; [intuition|]. rewrite IH. intuition.
Qed.
Lemma unique_in rows z : In z (unique_rows rows) <-> In z rows.
Proof.
  induction rows as [|r rows IH]; cbn; [easy|]. rewrite uinsert_in, IH. intuition.
Qed.
Lemma uinsert_sorted x l :
  StronglySorted (fun a b => lex_ltb a b = true) l ->
  StronglySorted (fun a b => lex_ltb a b = true) (uinsert x l).
Proof.
  induction l as [|y l IH]; cbn; intros H; [repeat constructor|].
  destruct (nlist_eqb x y) eqn:E; [exact H|].
  inversion H as [|? ? S F]; subst.
  destruct (lex_ltb x y) eqn:L.
  - constructor; auto. constructor; auto. eapply Forall_impl; [|exact F].
    cbn; intros; eapply lex_ltb_trans; eauto.
  - constructor; auto. rewrite Forall_forall in *. intros z Hz. apply uinsert_in in Hz.
    destruct Hz as [->|Hz]; auto. apply lex_ltb_total; auto.
    intros ->. now rewrite nlist_eqb_refl in E.
Qed.
Lemma unique_sorted rows : StronglySorted (fun a b => lex_ltb a b = true) (unique_rows rows).
Proof. induction rows; cbn; [constructor|]. now apply uinsert_sorted. Qed.
Lemma unique_nodup rows : NoDup (unique_rows rows).
Proof.
  pose proof (unique_sorted rows) as S. induction S as [|x l S IH F]; constructor; auto.
  intros H. rewrite Forall_forall in F. specialize (F _ H). now rewrite lex_ltb_irrefl in F.
Qed.

Lemma row_pos_spec x l : In x l ->
  row_pos x l < length l /\ nth (row_pos x l) l [] = x
  /\ forall j, j < row_pos x l -> nth j l [] <> x.
Proof.
  induction l as [|y l IH]; cbn; [easy|]. intros H.
  destruct (nlist_eqb x y) eqn:E.
  - apply nlist_eqb_eq in E; subst. repeat split; [lia|]. intros j Hj; lia.
  - destruct H as [->|H]; [now rewrite nlist_eqb_refl in E|].
    destruct (IH H) as [A [B C]]. repeat split; [lia|exact B|].
    intros [|j] Hj; [|apply C; lia]. intros ->. now rewrite nlist_eqb_refl in E.
Qed.

Lemma row_pos_inj x y l : In x l -> In y l -> row_pos x l = row_pos y l -> x = y.
Proof.
  intros Hx Hy E. destruct (row_pos_spec x l Hx) as [_ [A _]].
  destruct (row_pos_spec y l Hy) as [_ [B _]]. congruence.
Qed.

Lemma row_pos_nth l i : NoDup l -> i < length l -> row_pos (nth i l []) l = i.
Proof.
  intros N Hi. destruct (row_pos_spec (nth i l []) l (nth_In _ _ Hi)) as [A [B _]].
  apply (proj1 (NoDup_nth l []) N); auto.
Qed.

Definition is_first (rows : list (list nat)) i :=
  i < length rows /\ forall j, j < i -> nth j rows [] <> nth i rows [].

Lemma unique_index_in rows i : In i (unique_index rows) <-> is_first rows i.
Proof.
  unfold unique_index, is_first. rewrite in_map_iff. split.
  - intros [u [<- Hu]]. rewrite unique_in in Hu.
    destruct (row_pos_spec u rows Hu) as [A [B C]]. split; [exact A|].
    intros j Hj. rewrite B. auto.
  - intros [Hi F]. exists (nth i rows []). split; [|apply unique_in; now apply nth_In].
    destruct (row_pos_spec (nth i rows []) rows (nth_In _ _ Hi)) as [A [B C]].
    destruct (Nat.lt_trichotomy (row_pos (nth i rows []) rows) i) as [L|[E|G]]; auto.
    + now apply F in L.
    + now apply C in G.
Qed.

Lemma unique_index_nodup rows : NoDup (unique_index rows).
Proof.
  unfold unique_index. pose proof (unique_nodup rows) as N.
  assert (H : forall u, In u (unique_rows rows) -> In u rows) by (intros ? Hz; now rewrite unique_in in Hz).
  induction N as [|x l Hx N IH]; cbn; constructor.
  - rewrite in_map_iff. intros [y [E Hy]]. apply Hx.
    replace x with y; auto.
    apply (row_pos_inj y x rows); [apply H; now right|apply H; now left|exact E].
  - apply IH. intros; apply H; now right.
Qed.

Lemma sorted_le_lt l : StronglySorted le l -> NoDup l -> StronglySorted lt l.
Proof.
  induction 1 as [|x l S IH F]; intros N; constructor; inversion N; subst; auto.
  rewrite Forall_forall in *. intros y Hy. specialize (F y Hy).
  assert (x <> y) by (intros ->; auto). lia.
Qed.

Lemma first_index_sorted rows : StronglySorted lt (nsort (unique_index rows)).
Proof.
  apply sorted_le_lt; [apply nsort_sorted|].
  apply (Permutation_NoDup (nsort_perm _)), unique_index_nodup.
Qed.

Lemma remove_duplicates_ok g :
  Forall (wf (degree g)) (elems g) ->
  exists g' inv, remove_duplicates g = Ok (g', inv) /\ degree g' = degree g /\
    first_appearances (perm_of (degree g)) EId (elems g) (elems g').
Proof.
  intros W. unfold remove_duplicates. rewrite (to_array_ok g W). cbn [bind].
  eexists; eexists; split; [reflexivity|]. split; [reflexivity|]. cbn [elems].
  exists (nsort (unique_index (perms g))).
  split; [apply first_index_sorted|]. split; [reflexivity|].
  intros i. transitivity (In i (unique_index (perms g))).
  { split; apply Permutation_in; [apply Permutation_sym|]; apply nsort_perm. }
  rewrite unique_index_in. unfold is_first, perms. rewrite map_length.
  assert (E : forall k, k < length (elems g) ->
    nth k (map (perm_of (degree g)) (elems g)) [] = perm_of (degree g) (nth k (elems g) EId)).
  { intros k Hk. rewrite (nth_indep _ [] (perm_of (degree g) EId)) by now rewrite map_length.
    apply map_nth. }
  split; intros [Hi F]; split; auto; intros j Hj.
  - rewrite <- !E by lia. auto.
  - rewrite !E by lia. auto.
Qed.

Lemma unique_inverse_nth rows i : i < length rows ->
  nth i (unique_inverse rows) 0 < length (unique_rows rows) /\
  nth (nth i (unique_inverse rows) 0) (unique_rows rows) [] = nth i rows [].
Proof.
  intros Hi. unfold unique_inverse.
  rewrite (nth_indep _ 0 (row_pos [] (unique_rows rows))) by now rewrite map_length.
  rewrite (map_nth (fun r => row_pos r (unique_rows rows))).
  destruct (row_pos_spec (nth i rows []) (unique_rows rows)) as [A [B _]].
  { apply unique_in. now apply nth_In. }
  auto.
Qed.

Lemma index_nth rows k : k < length (unique_rows rows) ->
  nth (nth k (unique_index rows) 0) rows [] = nth k (unique_rows rows) []
  /\ nth k (unique_index rows) 0 < length rows.
Proof.
  intros Hk. unfold unique_index.
  rewrite (nth_indep _ 0 (row_pos [] rows)) by now rewrite map_length.
  rewrite (map_nth (fun u => row_pos u rows)).
  destruct (row_pos_spec (nth k (unique_rows rows) []) rows) as [A [B _]].
  { apply unique_in. now apply nth_In. }
  auto.
Qed.

(** The inverse array is right when first appearances come in lexicographic order. *)
Lemma remove_duplicates_inverse g g' inv :
  Forall (wf (degree g)) (elems g) ->
  (forall i j, i < j -> is_first (perms g) i -> is_first (perms g) j ->
     lex_ltb (nth i (perms g) []) (nth j (perms g) []) = true) ->
  remove_duplicates g = Ok (g', inv) ->
  length inv = length (elems g) /\
  forall i, i < length (elems g) -> nth i inv 0 < length (elems g') /\
    perm_of (degree g) (nth (nth i inv 0) (elems g') EId)
    = perm_of (degree g) (nth i (elems g) EId).
Proof.
  intros W O H. unfold remove_duplicates in H. rewrite (to_array_ok g W) in H.
  cbn [bind] in H. injection H as <- <-. cbn [elems].
  assert (LP : length (perms g) = length (elems g)) by apply map_length.
  split; [unfold unique_inverse; now rewrite map_length|].
  assert (S : StronglySorted lt (unique_index (perms g))).
  { assert (Hin : forall u, In u (unique_rows (perms g)) -> In u (perms g))
      by (intros ? Hz; now rewrite unique_in in Hz).
    unfold unique_index. pose proof (unique_sorted (perms g)) as S.
    induction S as [|u l S IH F]; cbn; constructor.
    - apply IH. intros; apply Hin; now right.
    - rewrite Forall_forall in *. intros k Hk. apply in_map_iff in Hk.
      destruct Hk as [v [<- Hv]]. specialize (F v Hv).
      assert (Hu' : In u (perms g)) by (apply Hin; now left).
      assert (Hv' : In v (perms g)) by (apply Hin; now right).
      destruct (row_pos_spec u _ Hu') as [A [B C]].
      destruct (row_pos_spec v _ Hv') as [A' [B' C']].
      destruct (Nat.lt_trichotomy (row_pos u (perms g)) (row_pos v (perms g)))
        as [L|[E|G]]; auto.
      + assert (u = v) by congruence. subst. now rewrite lex_ltb_irrefl in F.
      + exfalso. assert (L : lex_ltb v u = true).
        { rewrite <- B, <- B'. apply O; auto; split; auto; intros j Hj.
          - rewrite B'; auto.
          - rewrite B; auto. }
        pose proof (lex_ltb_trans _ _ _ F L) as X. now rewrite lex_ltb_irrefl in X. }
  assert (E : nsort (unique_index (perms g)) = unique_index (perms g)).
  { apply sorted_unique; [apply nsort_sorted|now apply lt_le_sorted|].
    apply Permutation_sym, nsort_perm. }
  rewrite E. intros i Hi. rewrite <- LP in Hi.
  destruct (unique_inverse_nth (perms g) i Hi) as [A B].
  rewrite map_length. unfold unique_index at 1. rewrite map_length. split; [exact A|].
  assert (P : forall k, k < length (perms g) ->
    perm_of (degree g) (nth k (elems g) EId) = nth k (perms g) []).
  { intros k Hk. unfold perms. rewrite (nth_indep _ [] (perm_of (degree g) EId)) by exact Hk.
    now rewrite map_nth. }
  rewrite P by exact Hi.
  rewrite (nth_indep _ EId (nth 0 (elems g) EId))
    by (unfold unique_index; rewrite !map_length; exact A).
  rewrite (map_nth (fun i => nth i (elems g) EId)).
  destruct (index_nth (perms g) _ A) as [X Y].
  rewrite P by exact Y. now rewrite X.
Qed.

(** ** conjugacy classes *)
Section Conj.
Variables (n : nat) (rows : list (list nat)).
Hypothesis Hp : Forall (isperm n) rows.
Hypothesis Hg : is_group n rows.
Hypothesis Hd : NoDup rows.

Lemma mem_perm p : In p rows -> isperm n p.
Proof. intros H. rewrite Forall_forall in Hp. auto. Qed.

Lemma mem_inv p : In p rows -> exists q, In q rows /\ inverses n p q.
Proof. apply Hg. Qed.

Lemma inverses_sym p q : inverses n p q -> inverses n q p.
Proof. intros [A B]; split; auto. Qed.

Lemma mem_times p q : In p rows -> In q rows -> In (times p q) rows.
Proof.
  intros Hin Hq. destruct (mem_inv p Hin) as [p' [Hp' I]].
  destruct Hg as [_ [_ C]]. apply (C p'); auto. now apply inverses_sym.
Qed.

Lemma cancel_l h a b : In h rows -> isperm n a -> isperm n b -> times h a = times h b -> a = b.
Proof.
  intros Hh Ha Hb E. destruct (mem_inv h Hh) as [h' [Hh' [_ I]]].
  rewrite <- (times_id_l n a Ha), <- (times_id_l n b Hb), <- I.
  rewrite !(times_assoc n) by (auto; now apply mem_perm). now rewrite E.
Qed.

Lemma conj_refl g : In g rows -> conjugate rows g g.
Proof. intros H; exists g; auto. Qed.

Lemma conj_sym g c : In g rows -> In c rows -> conjugate rows g c -> conjugate rows c g.
Proof.
  intros Hgr Hc [h [Hh E]]. destruct (mem_inv h Hh) as [h' [Hh' [I1 I2]]].
  exists h'. split; auto.
  pose proof (mem_perm _ Hgr). pose proof (mem_perm _ Hc). pose proof (mem_perm _ Hh).
  pose proof (mem_perm _ Hh').
  (* h' g = h' g h h' = h' h c h' = c h' *)
  transitivity (times h' (times (times g h) h')).
  - now rewrite (times_assoc n g h h'), I1, (times_id_r n) by auto.
  - rewrite <- E, (times_assoc n h c h'), <- (times_assoc n h' h) by auto using times_perm.
    rewrite I2. apply times_id_l. now apply times_perm.
Qed.

Lemma conj_trans a b c : In a rows -> In b rows -> In c rows ->
  conjugate rows a b -> conjugate rows b c -> conjugate rows a c.
Proof.
  intros Ha Hb Hc [h [Hh E]] [k [Hk F]].
  pose proof (mem_perm _ Ha). pose proof (mem_perm _ Hb). pose proof (mem_perm _ Hc).
  pose proof (mem_perm _ Hh). pose proof (mem_perm _ Hk).
  exists (times h k). split; [now apply mem_times|].
  rewrite (times_assoc n h k c), F by auto. rewrite <- (times_assoc n h b k), E by auto.
  now apply (times_assoc n).
Qed.

Variables (inv : list nat) (pt : list (list nat)).
Hypothesis Hinv : inverse_of rows = Ok inv.
Hypothesis Hpt : product_table_of rows inv = Ok pt.
Notation m := (length rows).

Lemma pt_len : length pt = m.
Proof. eapply product_table_of_ok; eauto. Qed.

Definition ctab i j := tget pt (tget pt i j) j.

Lemma ctab_ok i j : i < m -> j < m -> ctab i j < m /\
  times (nth j rows []) (nth (ctab i j) rows []) = times (nth i rows []) (nth j rows []).
Proof.
  intros Hi Hj. destruct (product_table_of_ok n rows inv pt Hp Hinv Hpt) as [_ T].
  destruct (inverse_of_ok n rows inv Hp Hinv) as [_ I].
  unfold ctab. destruct (T i j Hi Hj) as [U EU]. destruct (T _ j U Hj) as [V EV].
  split; [exact V|]. set (u := tget pt i j) in *.
  destruct (I i Hi) as [Li [A1 A2]]. destruct (I u U) as [Lu [B1 B2]].
  rewrite EV.
  assert (P : forall k, k < m -> isperm n (nth k rows [])) by (intros; now apply mem_perm, nth_In).
  pose proof (P i Hi). pose proof (P j Hj). pose proof (P _ Li). pose proof (P _ Lu).
  pose proof (P u U).
  (* g_i u = g_j, hence g_j c = g_i u u' g_j = g_i g_j *)
  assert (E1 : times (nth i rows []) (nth u rows []) = nth j rows []).
  { rewrite EU, <- (times_assoc n), A1 by auto. now apply times_id_l. }
  rewrite <- E1 at 1. rewrite (times_assoc n) by auto using times_perm. f_equal.
  rewrite <- (times_assoc n), B1 by auto. now apply times_id_l.
Qed.

Lemma ctab_nth i : i < m ->
  nth i (conjugacy_table_of pt) [] = map (ctab i) (seq 0 m).
Proof.
  intros Hi. unfold conjugacy_table_of. rewrite pt_len.
  rewrite (nth_indep _ [] (map (fun j => tget pt (tget pt 0 j) j) (seq 0 m)))
    by now rewrite map_length, seq_length.
  rewrite (map_nth (fun i => map (fun j => tget pt (tget pt i j) j) (seq 0 m))).
  now rewrite seq_nth.
Qed.

Lemma indicator_nth k js c : c < k ->
  nth c (indicator k js) 0 = if existsb (Nat.eqb c) js then 1 else 0.
Proof.
  intros Hc. unfold indicator.
  rewrite (nth_indep _ 0 (if existsb (Nat.eqb 0) js then 1 else 0))
    by now rewrite map_length, seq_length.
  rewrite (map_nth (fun j => if existsb (Nat.eqb j) js then 1 else 0)).
  now rewrite seq_nth.
Qed.

Definition isc := map (indicator (length pt)) (conjugacy_table_of pt).

Lemma isc_len : length isc = m.
Proof. unfold isc, conjugacy_table_of. now rewrite !map_length, seq_length, pt_len. Qed.

Lemma isc_row i : i < m -> nth i isc [] = indicator m (map (ctab i) (seq 0 m)).
Proof.
  intros Hi. unfold isc. rewrite pt_len.
  rewrite (nth_indep _ [] (indicator m [])).
  2:{ pose proof isc_len as L. unfold isc in L. rewrite pt_len in L. rewrite L. exact Hi. }
  now rewrite (map_nth (indicator m)), ctab_nth.
Qed.

Lemma isc_01 i c : i < m -> c < m -> nth c (nth i isc []) 0 = 0 \/ nth c (nth i isc []) 0 = 1.
Proof.
  intros Hi Hc. rewrite isc_row, indicator_nth by auto. destruct (existsb _ _); auto.
Qed.

Lemma isc_conj i c : i < m -> c < m ->
  nth c (nth i isc []) 0 = 1 <-> conjugate rows (nth i rows []) (nth c rows []).
Proof.
  intros Hi Hc. rewrite isc_row, indicator_nth by auto.
  destruct (existsb (Nat.eqb c) (map (ctab i) (seq 0 m))) eqn:E.
  - split; [|auto]. intros _. apply existsb_exists in E. destruct E as [k [Hk Ek]].
    apply Nat.eqb_eq in Ek; subst k. apply in_map_iff in Hk. destruct Hk as [j [<- Hj]].
    apply in_seq in Hj. destruct (ctab_ok i j Hi) as [_ X]; [lia|].
    exists (nth j rows []). split; [apply nth_In; lia|exact X].
  - split; [discriminate|]. intros [h [Hh X]]. exfalso.
    destruct (In_nth rows h [] Hh) as [j [Hj <-]].
    destruct (ctab_ok i j Hi Hj) as [L Y].
    assert (nth c rows [] = nth (ctab i j) rows []).
    { apply (cancel_l (nth j rows [])); auto.
      - now apply mem_perm, nth_In.
      - now apply mem_perm, nth_In.
      - congruence. }
    assert (c = ctab i j) by (apply (proj1 (NoDup_nth rows []) Hd); auto). subst c.
    assert (existsb (Nat.eqb (ctab i j)) (map (ctab i) (seq 0 m)) = true).
    { apply existsb_exists. exists (ctab i j). split; [|apply Nat.eqb_refl].
      apply in_map_iff. exists j. split; auto. apply in_seq; lia. }
    congruence.
Qed.

Lemma isc_len_row i : i < m -> length (nth i isc []) = m.
Proof. intros Hi. rewrite isc_row by auto. unfold indicator. now rewrite map_length, seq_length. Qed.

(** equal rows exactly for conjugate elements *)
Lemma isc_eq i j : i < m -> j < m ->
  (nth i isc [] = nth j isc [] <-> conjugate rows (nth i rows []) (nth j rows [])).
Proof.
  intros Hi Hj. pose proof (nth_In rows [] Hi). pose proof (nth_In rows [] Hj). split.
  - intros E. apply isc_conj; auto. rewrite E. apply isc_conj; auto. now apply conj_refl.
  - intros C. apply nth_ext with 0 0; [now rewrite !isc_len_row|].
    rewrite isc_len_row by auto. intros c Hc.
    pose proof (nth_In rows [] Hc).
    destruct (isc_01 i c Hi Hc) as [A|A]; destruct (isc_01 j c Hj Hc) as [B|B];
      rewrite A, B; auto; exfalso.
    + apply isc_conj in B; auto. enough (nth c (nth i isc []) 0 = 1) by lia.
      apply isc_conj; auto. apply (conj_trans _ (nth j rows [])); auto.
    + apply isc_conj in A; auto. enough (nth c (nth j isc []) 0 = 1) by lia.
      apply isc_conj; auto. apply (conj_trans _ (nth i rows [])); auto. now apply conj_sym.
Qed.

Lemma classes_ok classes reps cls :
  conjugacy_classes_of pt = (classes, reps, cls) ->
  length cls = m /\ length reps = length classes /\
  (forall i, i < m -> nth i cls 0 < length classes /\
     forall c, c < m -> (nth c (nth (nth i cls 0) classes []) 0 = 1 <->
                         conjugate rows (nth i rows []) (nth c rows []))) /\
  (forall r, r < length classes ->
     length (nth r classes []) = m /\
     (forall c, c < m -> nth c (nth r classes []) 0 = 0 \/ nth c (nth r classes []) 0 = 1) /\
     nth r reps 0 < m /\ nth (nth r reps 0) cls 0 = r /\
     nth (nth r reps 0) (nth r classes []) 0 = 1 /\
     (forall c, c < m -> nth c (nth r classes []) 0 = 1 -> nth r reps 0 <= c)).
Proof.
  unfold conjugacy_classes_of. fold isc. intros H.
  injection H as <- <- <-.
  set (U := unique_rows isc). set (X := unique_index isc).
  assert (LX : length X = length U) by apply map_length.
  assert (LC : length (map (fun k => length (rev X) - 1 - k) (unique_inverse isc)) = m)
    by (unfold unique_inverse; rewrite !map_length; apply isc_len).
  assert (NC : forall i, i < m ->
    nth i (map (fun k => length (rev X) - 1 - k) (unique_inverse isc)) 0
    = length U - 1 - nth i (unique_inverse isc) 0).
  { intros i Hi. rewrite (nth_indep _ 0 (length (rev X) - 1 - 0)) by (rewrite LC; exact Hi).
    rewrite (map_nth (fun k => length (rev X) - 1 - k)). rewrite rev_length. now rewrite LX. }
  assert (RC : forall i, i < m -> nth i (unique_inverse isc) 0 < length U /\
     nth (length U - 1 - nth i (unique_inverse isc) 0) (rev U) [] = nth i isc []).
  { intros i Hi. destruct (unique_inverse_nth isc i) as [A B]; [now rewrite isc_len|].
    fold U in A, B. split; [exact A|]. rewrite rev_nth by lia.
    replace (length U - S (length U - 1 - nth i (unique_inverse isc) 0))
      with (nth i (unique_inverse isc) 0) by lia. exact B. }
  split; [exact LC|]. split; [now rewrite !rev_length|]. split.
  - intros i Hi. rewrite NC by auto. destruct (RC i Hi) as [A B]. rewrite B.
    rewrite rev_length. split; [lia|]. intros c Hc. now apply isc_conj.
  - intros r Hr. rewrite rev_length in Hr.
    rewrite !rev_nth by lia. rewrite LX. set (k := length U - S r).
    assert (Hk : k < length U) by (unfold k; lia).
    destruct (index_nth isc k Hk) as [A B]. fold X U in A, B. rewrite isc_len in B.
    assert (F : is_first isc (nth k X 0)) by (apply unique_index_in; fold X; apply nth_In; rewrite LX; exact Hk).
    rewrite <- A. split; [now apply isc_len_row|]. split; [now intros; apply isc_01|].
    split; [exact B|]. split; [|split].
    + rewrite NC by auto.
      assert (nth (nth k X 0) (unique_inverse isc) 0 = k).
      { destruct (RC _ B) as [C _].
        destruct (unique_inverse_nth isc (nth k X 0)) as [_ D]; [now rewrite isc_len|].
        fold U in D. apply (proj1 (NoDup_nth U []) (unique_nodup isc)); auto. congruence. }
      rewrite H. unfold k; lia.
    + apply isc_conj; auto. apply conj_refl. now apply nth_In.
    + intros c Hc E. destruct (Nat.le_gt_cases (nth k X 0) c) as [|L]; auto. exfalso.
      destruct F as [_ F]. apply (F c L). apply isc_eq; auto.
      apply conj_sym; try (now apply nth_In). now apply isc_conj.
Qed.
End Conj.

Lemma group_tables g :
  Forall (wf (degree g)) (elems g) -> is_group (degree g) (perms g) ->
  exists inv pt, inverse_of (perms g) = Ok inv /\ product_table_of (perms g) inv = Ok pt
    /\ inverse g = Ok inv /\ product_table g = Ok pt.
Proof.
  intros W G.
  assert (F : Forall (isperm (degree g)) (perms g))
    by (rewrite Forall_forall; intros; now apply perms_perm).
  unfold inverse, product_table. rewrite (to_array_ok g W). cbn [bind].
  destruct (inverse_of (perms g)) as [inv|e] eqn:E.
  - destruct (product_table_of (perms g) inv) as [pt|e] eqn:E'.
    + exists inv, pt. cbn [bind]. rewrite E'. destruct G as [NE _].
      destruct (perms g); [contradiction|]. auto.
    + destruct (product_table_of_err _ _ _ _ F E E') as [_ N]. destruct N. apply G.
  - destruct (inverse_of_err _ _ _ F E) as [_ N]. destruct N. apply G.
Qed.

Lemma classes_partition g classes reps cls :
  Forall (wf (degree g)) (elems g) -> is_group (degree g) (perms g) -> NoDup (perms g) ->
  conjugacy_classes g = Ok (classes, reps, cls) ->
  forall c, c < length (perms g) ->
  exists! r, r < length classes /\ nth c (nth r classes []) 0 = 1.
Proof.
  intros W G D H c Hc.
  assert (F : Forall (isperm (degree g)) (perms g))
    by (rewrite Forall_forall; intros; now apply perms_perm).
  destruct (group_tables g W G) as [inv [pt [HI [HP [_ HT]]]]].
  unfold conjugacy_classes in H. rewrite HT in H. cbn [bind] in H.
  assert (H' : conjugacy_classes_of pt = (classes, reps, cls)) by congruence. clear H; rename H' into H.
  destruct (classes_ok _ _ F G D inv pt HI HP _ _ _ H) as [L1 [L2 [A B]]].
  destruct (A c Hc) as [R Cc]. exists (nth c cls 0). split.
  - split; [exact R|]. apply Cc; auto. apply conj_refl. now apply nth_In.
  - intros r [Hr Er]. destruct (B r Hr) as [_ [_ [Rm [Rc _]]]].
    destruct (A _ Rm) as [_ Cr]. rewrite Rc in Cr.
    apply Cr in Er; auto.
    assert (E2 : nth (nth r reps 0) (nth (nth c cls 0) classes []) 0 = 1).
    { apply Cc; auto. apply (conj_sym (degree g)); auto; now apply nth_In. }
    (* both rows are the row of the representative *)
    destruct (B _ R) as [_ [_ [Sm [Sc _]]]].
    assert (isc_eq' := isc_eq _ _ F G D inv pt HI HP c (nth r reps 0) Hc Rm).
    assert (EQ : nth c (isc pt) [] = nth (nth r reps 0) (isc pt) []).
    { apply isc_eq'. apply Cc; auto. }
    rewrite <- Rc. 
    unfold conjugacy_classes_of in H. fold (isc pt) in H. injection H as _ _ <-.
    assert (UE : nth c (unique_inverse (isc pt)) 0 = nth (nth r reps 0) (unique_inverse (isc pt)) 0).
    { pose proof (isc_len _ _ F inv pt HI HP) as LI.
      unfold unique_inverse.
      rewrite !(nth_indep (map _ (isc pt)) 0 (row_pos [] (unique_rows (isc pt))))
        by (rewrite map_length, LI; auto).
      rewrite !(map_nth (fun r => row_pos r (unique_rows (isc pt)))). now rewrite EQ. }
    pose proof (isc_len _ _ F inv pt HI HP) as LI.
    match goal with |- nth _ (map ?f ?l) 0 = _ =>
      rewrite !(nth_indep (map f l) 0 (f 0))
        by (rewrite map_length; unfold unique_inverse; rewrite map_length, LI; auto);
      rewrite !(map_nth f) end.
    now rewrite UE.
Qed.

Lemma inverse_thm :
  forall g, Forall (wf (degree g)) (elems g) ->
  match inverse g with
  | Ok inv => length inv = length (elems g) /\
      forall i, i < length (elems g) -> nth i inv 0 < length (elems g) /\
        inverses (degree g) (nth i (perms g) []) (nth (nth i inv 0) (perms g) [])
  | Err e => e = RuntimeError /\ ~ has_inverses (degree g) (perms g)
  end.
Proof.
  intros g W. unfold inverse. rewrite (to_array_ok g W). cbn [bind].
  assert (F : Forall (isperm (degree g)) (perms g))
    by (rewrite Forall_forall; intros; now apply perms_perm).
  destruct (inverse_of (perms g)) as [inv|e] eqn:E.
  - pose proof (inverse_of_ok _ _ _ F E) as H.
    replace (length (elems g)) with (length (perms g)) by apply map_length. exact H.
  - now apply (inverse_of_err _ _ _ F).
Qed.

Lemma product_table_thm :
  forall g, Forall (wf (degree g)) (elems g) ->
  match product_table g with
  | Ok pt => is_group (degree g) (perms g) /\ length pt = length (elems g) /\
      forall i j p', i < length (elems g) -> j < length (elems g) ->
        inverses (degree g) (nth i (perms g) []) p' ->
        nth j (nth i pt []) 0 < length (elems g) /\
        nth (nth j (nth i pt []) 0) (perms g) [] = times p' (nth j (perms g) [])
  | Err e => ~ is_group (degree g) (perms g) /\ (elems g <> [] -> e = RuntimeError)
  end.
Proof.
  intros g W. unfold product_table. rewrite (to_array_ok g W). cbn [bind].
  assert (F : Forall (isperm (degree g)) (perms g))
    by (rewrite Forall_forall; intros; now apply perms_perm).
  destruct (inverse_of (perms g)) as [inv|e] eqn:E; cbn [bind].
  2:{ destruct (inverse_of_err _ _ _ F E) as [-> N]. split; [|auto]. intros G. apply N, G. }
  assert (NE : perms g = [] <-> elems g = []).
  { unfold perms. destruct (elems g); cbn; split; congruence. }
  assert (X : match product_table_of (perms g) inv with
    | Ok pt => (perms g <> [] -> is_group (degree g) (perms g)) /\ length pt = length (elems g) /\
      forall i j p', i < length (elems g) -> j < length (elems g) ->
        inverses (degree g) (nth i (perms g) []) p' ->
        nth j (nth i pt []) 0 < length (elems g) /\
        nth (nth j (nth i pt []) 0) (perms g) [] = times p' (nth j (perms g) [])
    | Err e => ~ is_group (degree g) (perms g) /\ (elems g <> [] -> e = RuntimeError) end).
  { destruct (product_table_of (perms g) inv) as [pt|e] eqn:E'.
    - destruct (product_table_of_ok _ _ _ _ F E E') as [L T].
      destruct (inverse_of_ok _ _ _ F E) as [LI I].
      assert (LP : length (perms g) = length (elems g)) by apply map_length.
      rewrite Forall_forall in F.
      assert (U : forall i p', i < length (perms g) -> inverses (degree g) (nth i (perms g) []) p' ->
        p' = nth (nth i inv 0) (perms g) []).
      { intros i p' Hi IV. destruct (I i Hi) as [Li Ii].
        pose proof (F _ (nth_In (perms g) [] Hi)) as P1.
        apply (inverses_unique (degree g) (nth i (perms g) [])); auto.
        - apply (inverses_perm _ _ _ P1 IV).
        - apply F. now apply nth_In. }
      split; [|split; [now rewrite L|]].
      + intros HN. split; [exact HN|]. split.
        * intros p Hp. destruct (In_nth _ p [] Hp) as [i [Hi <-]].
          exists (nth (nth i inv 0) (perms g) []). destruct (I i Hi). split; auto.
          now apply nth_In.
        * intros p q p' Hp Hq IV. destruct (In_nth _ p [] Hp) as [i [Hi <-]].
          destruct (In_nth _ q [] Hq) as [j [Hj <-]].
          rewrite (U i p' Hi IV). destruct (T i j Hi Hj) as [A <-]. now apply nth_In.
      + intros i j p' Hi Hj IV. rewrite <- LP in *. rewrite (U i p' Hi IV).
        apply T; auto.
    - destruct (product_table_of_err _ _ _ _ F E E') as [-> N]. split; [|auto].
      intros G; apply N, G. }
  destruct (perms g) as [|p0 ps] eqn:EP.
  - split; [intros [N _]; auto|]. intros N; exfalso; apply N, NE; reflexivity.
  - destruct (product_table_of (p0 :: ps) inv); [|exact X].
    destruct X as [X1 X2]. split; [apply X1; discriminate|exact X2].
Qed.

Lemma classes_thm :
  forall g, Forall (wf (degree g)) (elems g) -> is_group (degree g) (perms g) ->
  NoDup (perms g) ->
  exists classes reps cls, conjugacy_classes g = Ok (classes, reps, cls) /\
  length cls = length (perms g) /\ length reps = length classes /\
  (forall i, i < length (perms g) -> nth i cls 0 < length classes /\
     forall c, c < length (perms g) ->
       (nth c (nth (nth i cls 0) classes []) 0 = 1 <->
        conjugate (perms g) (nth i (perms g) []) (nth c (perms g) []))) /\
  (forall r, r < length classes ->
     length (nth r classes []) = length (perms g) /\
     (forall c, c < length (perms g) ->
        nth c (nth r classes []) 0 = 0 \/ nth c (nth r classes []) 0 = 1) /\
     nth r reps 0 < length (perms g) /\ nth (nth r reps 0) cls 0 = r /\
     nth (nth r reps 0) (nth r classes []) 0 = 1 /\
     (forall c, c < length (perms g) -> nth c (nth r classes []) 0 = 1 -> nth r reps 0 <= c)).
Proof.
  intros g W G D.
  destruct (group_tables g W G) as [inv [pt [HI [HP [_ HT]]]]].
  unfold conjugacy_classes. rewrite HT. cbn [bind].
  destruct (conjugacy_classes_of pt) as [[classes reps] cls] eqn:E.
  exists classes, reps, cls. split; [reflexivity|].
  apply (classes_ok (degree g) (perms g)) with (inv := inv) (pt := pt); auto.
  rewrite Forall_forall; intros; now apply perms_perm.
Qed.
