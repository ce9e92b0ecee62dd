(** * Proofs about the exchange step of parallel tempering *)
From Coq Require Import List Arith ZArith QArith Bool Lia Permutation.
From Verif Require Import Base BaseFacts PT_Model PT_Spec.
Import ListNotations.
Open Scope nat_scope.

Lemma nth_map_seq {A} (f : nat -> A) n i d : i < n -> nth i (map f (seq 0 n)) d = f i.
Proof.
  intros Hi. rewrite (nth_indep _ d (f 0)) by (rewrite map_length, seq_length; exact Hi).
  rewrite (map_nth f), seq_nth by exact Hi. reflexivity.
Qed.

Section G.
  Context {A : Type}.
  Variable d : A.

  Lemma scatter_length (row : list A) idxs vals : length (scatter row idxs vals) = length row.
  Proof.
    revert row vals; induction idxs as [|i idxs IH]; intros row vals; [reflexivity|].
    destruct vals; cbn [scatter]; [reflexivity|]. rewrite IH. apply upd_length.
  Qed.

  Lemma scatter_out (row : list A) idxs vals i :
    ~ In i idxs -> nth i (scatter row idxs vals) d = nth i row d.
  Proof.
    revert row vals; induction idxs as [|j idxs IH]; intros row vals Hi; [reflexivity|].
    destruct vals; cbn [scatter]; [reflexivity|].
    rewrite IH by (intros C; apply Hi; right; exact C).
    apply nth_upd_other. intros C; apply Hi; left; congruence.
  Qed.

  Lemma scatter_in (row : list A) idxs vals p :
    NoDup idxs -> length vals = length idxs -> Forall (fun i => i < length row) idxs ->
    p < length idxs -> nth (nth p idxs 0) (scatter row idxs vals) d = nth p vals d.
  Proof.
    revert row vals p; induction idxs as [|j idxs IH]; intros row vals p Hn Hl Hf Hp;
      cbn [length] in *; [lia|].
    destruct vals as [|v vals]; [discriminate|]. cbn [scatter].
    inversion Hn; subst. inversion Hf; subst.
    destruct p as [|p]; cbn [nth].
    - rewrite scatter_out by assumption. apply nth_upd_same; assumption.
    - apply IH.
      + assumption.
      + cbn [length] in Hl; lia.
      + rewrite upd_length; assumption.
      + lia.
  Qed.

  Lemma nth_gather (row : list A) idxs p :
    p < length idxs -> nth p idxs 0 < length row ->
    nth p (gather d row idxs) d = nth (nth p idxs 0) row d.
  Proof.
    intros Hp Hr. unfold gather.
    set (f := fun i : nat => nth (Nat.min i (length row - 1)) row d).
    rewrite (nth_indep _ d (f 0)) by (rewrite map_length; exact Hp).
    rewrite (map_nth f). unfold f. f_equal. lia.
  Qed.
End G.

  (** decisions *)
  Lemma dup_length (l : list bool) : length (flat_map (fun b => [b; b]) l) = 2 * length l.
  Proof. induction l as [|b l IH]; cbn [flat_map app length]; lia. Qed.
  Lemma dup_nth (l : list bool) p : p < length l ->
    nth (2 * p) (flat_map (fun b => [b; b]) l) false = nth p l false /\
    nth (2 * p + 1) (flat_map (fun b => [b; b]) l) false = nth p l false.
  Proof.
    revert p; induction l as [|b l IH]; intros p Hp; cbn [length] in Hp; [lia|].
    destruct p as [|p]; [split; reflexivity|].
    replace (2 * S p) with (S (S (2 * p))) by lia.
    replace (S (S (2 * p)) + 1) with (S (S (2 * p + 1))) by lia.
    cbn [flat_map app nth]. apply IH. lia.
  Qed.
  Lemma even_2 p : Nat.even (2 * p) = true.
  Proof. rewrite Nat.even_mul. reflexivity. Qed.
  Lemma even_21 p : Nat.even (2 * p + 1) = false.
  Proof. rewrite Nat.add_1_r, Nat.even_succ, <- Nat.negb_even, even_2. reflexivity. Qed.

  Lemma swap_rows_length {A} (d : A) row idxs inn : length (swap_rows d row idxs inn) = length row.
  Proof. unfold swap_rows. rewrite !scatter_length. reflexivity. Qed.

Section Idx.
  Variables k order : nat.
  Hypothesis Hk : 0 < k.
  Hypothesis Ho : order < 2.
  Let n := 2 * k.

  Lemma half : (n + 1) / 2 = k.
  Proof. unfold n. replace (2 * k + 1) with (1 + k * 2) by lia. rewrite Nat.div_add by lia. reflexivity. Qed.

  Lemma idxs_length : length (swap_idxs n order) = k.
  Proof. unfold swap_idxs. rewrite map_length, seq_length. exact half. Qed.
  Lemma inn_length : length (swap_inn n order) = k.
  Proof. unfold swap_inn. rewrite map_length. exact idxs_length. Qed.

  Lemma idxs_nth p : p < k -> nth p (swap_idxs n order) 0 = 2 * p + order.
  Proof.
    intros Hp. unfold swap_idxs. rewrite half. set (f := fun p => 2 * p + order).
    rewrite (nth_indep _ 0 (f 0)) by (rewrite map_length, seq_length; exact Hp).
    rewrite (map_nth f), seq_nth by exact Hp. reflexivity.
  Qed.
  Lemma inn_nth p : p < k -> nth p (swap_inn n order) 0 = (2 * p + order + 1) mod n.
  Proof.
    intros Hp. unfold swap_inn. set (f := fun i => (i + 1) mod n).
    rewrite (nth_indep _ 0 (f 0)) by (rewrite map_length, idxs_length; exact Hp).
    rewrite (map_nth f), idxs_nth by exact Hp. reflexivity.
  Qed.

  Lemma in_idxs i : In i (swap_idxs n order) -> exists p, p < k /\ i = 2 * p + order.
  Proof.
    unfold swap_idxs. rewrite half. intros H. apply in_map_iff in H. destruct H as [p [E Hp]].
    apply in_seq in Hp. exists p; split; lia.
  Qed.
  Lemma in_inn i : In i (swap_inn n order) -> exists p, p < k /\ i = (2 * p + order + 1) mod n.
  Proof.
    unfold swap_inn. intros H. apply in_map_iff in H. destruct H as [j [E Hj]].
    apply in_idxs in Hj. destruct Hj as [p [Hp ->]]. exists p; split; [exact Hp|symmetry; exact E].
  Qed.

  (** arithmetic of (2p + o + 1) mod 2k *)
  Lemma wrap_val p : p < k ->
    (order = 0 /\ (2 * p + order + 1) mod n = 2 * p + 1) \/
    (order = 1 /\ p < k - 1 /\ (2 * p + order + 1) mod n = 2 * p + 2) \/
    (order = 1 /\ p = k - 1 /\ (2 * p + order + 1) mod n = 0).
  Proof.
    intros Hp. unfold n. destruct (Nat.eq_dec order 0) as [->|E].
    - left. split; [reflexivity|]. rewrite Nat.mod_small; lia.
    - right. assert (order = 1) by lia. subst order.
      destruct (Nat.eq_dec p (k - 1)) as [->|E2].
      + right. repeat split. replace (2 * (k - 1) + 1 + 1) with (2 * k) by lia. apply Nat.mod_same. lia.
      + left. repeat split; [lia|]. rewrite Nat.mod_small; lia.
  Qed.

  Lemma idxs_nodup : NoDup (swap_idxs n order).
  Proof.
    apply (NoDup_nth _ 0). rewrite idxs_length. intros i j Hi Hj E.
    rewrite !idxs_nth in E by assumption. lia.
  Qed.
  Lemma inn_nodup : NoDup (swap_inn n order).
  Proof.
    apply (NoDup_nth _ 0). rewrite inn_length. intros i j Hi Hj E.
    rewrite !inn_nth in E by assumption.
    destruct (wrap_val i Hi) as [[A1 A2]|[[A1 [A2 A3]]|[A1 [A2 A3]]]];
    destruct (wrap_val j Hj) as [[B1 B2]|[[B1 [B2 B3]]|[B1 [B2 B3]]]]; lia.
  Qed.
  Lemma idxs_range : Forall (fun i => i < n) (swap_idxs n order).
  Proof. apply Forall_forall. intros i Hi. apply in_idxs in Hi. unfold n. destruct Hi as [p [Hp ->]]. lia. Qed.
  Lemma inn_range : Forall (fun i => i < n) (swap_inn n order).
  Proof.
    apply Forall_forall. intros i Hi. apply in_inn in Hi. destruct Hi as [p [Hp ->]].
    apply Nat.mod_upper_bound. unfold n; lia.
  Qed.

  Lemma idxs_not_inn p q : p < k -> q < k -> (2 * p + order + 1) mod n <> 2 * q + order.
  Proof.
    intros Hp Hq E.
    destruct (wrap_val p Hp) as [[A1 A2]|[[A1 [A2 A3]]|[A1 [A2 A3]]]]; lia.
  Qed.

  (** every position is the first or the second member of a pair *)
  Lemma split_pos i : i < n ->
    (exists p, p < k /\ i = 2 * p + order) \/ (exists p, p < k /\ i = (2 * p + order + 1) mod n).
  Proof.
    intros Hi. destruct (Nat.Even_or_Odd i) as [[q E]|[q E]].
    - destruct (Nat.eq_dec order 0) as [E0|E0].
      + left. exists q. split; [unfold n in Hi; lia|lia].
      + right. destruct (Nat.eq_dec q 0) as [->|E1].
        * exists (k - 1). split; [lia|].
          destruct (wrap_val (k - 1)) as [[A1 A2]|[[A1 [A2 A3]]|[A1 [A2 A3]]]]; lia.
        * exists (q - 1). unfold n in Hi. split; [lia|].
          destruct (wrap_val (q - 1)) as [[A1 A2]|[[A1 [A2 A3]]|[A1 [A2 A3]]]]; lia.
    - unfold n in Hi. destruct (Nat.eq_dec order 0) as [E0|E0].
      + right. exists q. split; [lia|].
        destruct (wrap_val q) as [[A1 A2]|[[A1 [A2 A3]]|[A1 [A2 A3]]]]; lia.
      + left. exists q. split; lia.
  Qed.

  Lemma partner_first p : p < k -> partner n order (2 * p + order) = (2 * p + order + 1) mod n.
  Proof.
    intros Hp. unfold partner. replace (2 * p + order + order) with (2 * (p + order)) by lia.
    rewrite even_2. reflexivity.
  Qed.
  Lemma partner_second p : p < k -> partner n order ((2 * p + order + 1) mod n) = 2 * p + order.
  Proof.
    intros Hp. unfold partner.
    destruct (wrap_val p Hp) as [[A1 A2]|[[A1 [A2 A3]]|[A1 [A2 A3]]]].
    - rewrite A2, A1. replace (2 * p + 1 + 0) with (2 * p + 1) by lia. rewrite even_21.
      unfold n. replace (2 * p + 1 + 2 * k - 1) with (2 * p + 1 * (2 * k)) by lia.
      rewrite Nat.mod_add by lia. rewrite Nat.mod_small; lia.
    - rewrite A3, A1. replace (2 * p + 2 + 1) with (2 * (p + 1) + 1) by lia. rewrite even_21.
      unfold n. replace (2 * p + 2 + 2 * k - 1) with (2 * p + 1 + 1 * (2 * k)) by lia.
      rewrite Nat.mod_add by lia. rewrite Nat.mod_small; lia.
    - rewrite A3, A1. cbn [Nat.add Nat.even]. unfold n. rewrite Nat.mod_small; lia.
  Qed.

  Lemma partner_lt i : i < n -> partner n order i < n.
  Proof. intros Hi. unfold partner. destruct (Nat.even _); apply Nat.mod_upper_bound; unfold n; lia. Qed.
  Lemma partner_invol i : i < n -> partner n order (partner n order i) = i.
  Proof.
    intros Hi. destruct (split_pos i Hi) as [[p [Hp ->]]|[p [Hp ->]]].
    - rewrite partner_first, partner_second by assumption. reflexivity.
    - rewrite partner_second, partner_first by assumption. reflexivity.
  Qed.

  Lemma swap_rows_nth {A} (d : A) row i : length row = n -> i < n ->
    nth i (swap_rows d row (swap_idxs n order) (swap_inn n order)) d = nth (partner n order i) row d.
  Proof.
    intros Hl Hi. unfold swap_rows.
    destruct (split_pos i Hi) as [[p [Hp E]]|[p [Hp E]]].
    - rewrite scatter_out.
      + rewrite E. rewrite partner_first by exact Hp.
        rewrite <- (idxs_nth p Hp) at 1. rewrite scatter_in.
        * rewrite nth_gather; [rewrite inn_nth by exact Hp; reflexivity| rewrite inn_length; exact Hp|].
          rewrite inn_nth by exact Hp. rewrite Hl. apply Nat.mod_upper_bound. unfold n; lia.
        * exact idxs_nodup.
        * unfold gather. rewrite map_length, inn_length, idxs_length. reflexivity.
        * rewrite Hl. exact idxs_range.
        * rewrite idxs_length. exact Hp.
      + intros C. apply in_inn in C. destruct C as [q [Hq C]]. subst i.
        symmetry in C. revert C. apply idxs_not_inn; assumption.
    - rewrite E. rewrite partner_second by exact Hp.
      rewrite <- (inn_nth p Hp) at 1. rewrite scatter_in.
      + rewrite nth_gather; [rewrite idxs_nth by exact Hp; reflexivity|rewrite idxs_length; exact Hp|].
        rewrite idxs_nth by exact Hp. rewrite Hl. unfold n; lia.
      + exact inn_nodup.
      + unfold gather. rewrite map_length, inn_length, idxs_length. reflexivity.
      + rewrite scatter_length, Hl. exact inn_range.
      + rewrite inn_length. exact Hp.
  Qed.

End Idx.

Lemma roll1_snoc {A} (d : A) r a : roll1 d (r ++ [a]) = a :: r.
Proof.
  transitivity (last (r ++ [a]) d :: removelast (r ++ [a])).
  - destruct r; reflexivity.
  - rewrite last_last, removelast_last. reflexivity.
Qed.
Lemma roll1_length {A} (d : A) l : length (roll1 d l) = length l.
Proof.
  destruct l as [|x l]; [reflexivity|].
  destruct (exists_last (l := x :: l) ltac:(discriminate)) as [r [a E]]. rewrite E, roll1_snoc.
  rewrite app_length. cbn [length]. lia.
Qed.
Lemma roll1_nth {A} (d : A) l i : i < length l ->
  nth i (roll1 d l) d = match i with 0 => nth (length l - 1) l d | S i => nth i l d end.
Proof.
  intros Hi. destruct l as [|x l]; [cbn in Hi; lia|].
  destruct (exists_last (l := x :: l) ltac:(discriminate)) as [r [a E]]. rewrite E in *. clear E.
  rewrite roll1_snoc. rewrite app_length in Hi. cbn [length] in Hi.
  destruct i as [|i]; cbn [nth].
  - rewrite app_length. cbn [length]. rewrite app_nth2 by lia.
    replace (length r + 1 - 1 - length r) with 0 by lia. reflexivity.
  - rewrite app_nth1 by lia. reflexivity.
Qed.

Lemma even_2k k : Nat.odd (2 * k) = false.
Proof. rewrite Nat.odd_mul. reflexivity. Qed.

Lemma do_swap_ok k order pairs : order < 2 -> length pairs = k -> 0 < k ->
  exists ds, do_swap_row (2 * k) order pairs = Ok ds /\ length ds = 2 * k /\
    (forall p, p < k -> nth (2 * p + order) ds false = nth p pairs false) /\
    (forall p, p < k -> nth ((2 * p + order + 1) mod (2 * k)) ds false = nth p pairs false).
Proof.
  intros Ho Hl Hk. unfold do_swap_row. rewrite even_2k.
  eexists. split; [reflexivity|].
  destruct (Nat.eqb_spec order 0) as [->|E].
  - split; [rewrite dup_length, Hl; reflexivity|]. split; intros p Hp.
    + rewrite Nat.add_0_r. apply dup_nth. lia.
    + rewrite Nat.mod_small by lia. replace (2 * p + 0 + 1) with (2 * p + 1) by lia. apply dup_nth. lia.
  - assert (order = 1) by lia. subst order.
    split; [rewrite roll1_length, dup_length, Hl; reflexivity|]. split; intros p Hp.
    + rewrite roll1_nth by (rewrite dup_length; lia). rewrite Nat.add_1_r.
      apply dup_nth. lia.
    + destruct (Nat.eq_dec p (k - 1)) as [->|E2].
      * replace (2 * (k - 1) + 1 + 1) with (2 * k) by lia. rewrite Nat.mod_same by lia.
        rewrite roll1_nth by (rewrite dup_length; lia). rewrite dup_length, Hl.
        replace (2 * k - 1) with (2 * (k - 1) + 1) by lia. apply dup_nth. lia.
      * rewrite Nat.mod_small by lia. rewrite roll1_nth by (rewrite dup_length; lia).
        replace (2 * p + 1 + 1) with (S (2 * p + 1)) by lia. apply dup_nth. lia.
Qed.

Lemma do_swap_partner k order pairs ds i : order < 2 -> length pairs = k -> 0 < k -> i < 2 * k ->
  do_swap_row (2 * k) order pairs = Ok ds ->
  nth (partner (2 * k) order i) ds false = nth i ds false.
Proof.
  intros Ho Hl Hk Hi E. destruct (do_swap_ok k order pairs Ho Hl Hk) as [ds' [E' [_ [H1 H2]]]].
  assert (ds' = ds) by congruence. subst ds'.
  destruct (split_pos k order Hk Ho i Hi) as [[p [Hp ->]]|[p [Hp ->]]].
  - rewrite partner_first by assumption. rewrite H1, H2 by assumption. reflexivity.
  - rewrite partner_second by assumption. rewrite H1, H2 by assumption. reflexivity.
Qed.

Lemma where_row_length {A} ds (a b : list A) : length ds = length a -> length a = length b ->
  length (where_row ds a b) = length ds.
Proof. intros H1 H2. unfold where_row. rewrite map_length, !combine_length. lia. Qed.
Lemma where_row_nth {A} (d : A) ds a b i : length ds = length a -> length a = length b ->
  i < length ds -> nth i (where_row ds a b) d = if nth i ds false then nth i a d else nth i b d.
Proof.
  intros H1 H2 Hi. unfold where_row.
  set (f := fun t : bool * (A * A) => if fst t then fst (snd t) else snd (snd t)).
  rewrite (nth_indep _ d (f (false, (d, d)))) by (rewrite map_length, !combine_length; lia).
  rewrite (map_nth f). rewrite combine_nth by (rewrite combine_length; lia).
  rewrite combine_nth by lia. reflexivity.
Qed.

Lemma perm_of_invol {A} (d : A) (row row' : list A) (pi : nat -> nat) :
  length row' = length row ->
  (forall i, i < length row -> pi i < length row /\ pi (pi i) = i) ->
  (forall i, i < length row -> nth i row' d = nth (pi i) row d) -> Permutation row row'.
Proof.
  intros Hl Hpi Hn.
  assert (E : row' = map (fun i => nth i row d) (map pi (seq 0 (length row)))).
  { apply (nth_ext _ _ d d); [rewrite !map_length, seq_length; exact Hl|].
    intros i Hi. rewrite Hl in Hi. rewrite Hn by exact Hi. rewrite map_map.
    rewrite nth_map_seq by exact Hi. reflexivity. }
  assert (E0 : row = map (fun i => nth i row d) (seq 0 (length row))).
  { apply (nth_ext _ _ d d); [rewrite !map_length, seq_length; reflexivity|].
    intros i Hi. rewrite nth_map_seq by exact Hi. reflexivity. }
  rewrite E0 at 1. rewrite E. apply Permutation_map.
  apply NoDup_Permutation_bis; [apply seq_NoDup|rewrite map_length; lia|].
  intros i Hi. apply in_seq in Hi. destruct (Hpi i ltac:(lia)) as [P1 P2].
  apply in_map_iff. exists (pi i). split; [exact P2|apply in_seq; lia].
Qed.

Lemma exchange_nth {A} (d : A) k order pairs ds row i :
  order < 2 -> length pairs = k -> 0 < k -> length row = 2 * k -> i < 2 * k ->
  do_swap_row (2 * k) order pairs = Ok ds ->
  nth i (where_row ds (swap_rows d row (swap_idxs (2 * k) order) (swap_inn (2 * k) order)) row) d
  = nth (if nth i ds false then partner (2 * k) order i else i) row d.
Proof.
  intros Ho Hl Hk Hr Hi E. destruct (do_swap_ok k order pairs Ho Hl Hk) as [ds' [E' [Hds _]]].
  assert (ds' = ds) by congruence. subst ds'.
  rewrite where_row_nth by (rewrite ?swap_rows_length; lia).
  destruct (nth i ds false); [apply swap_rows_nth; assumption|reflexivity].
Qed.

Lemma exchange_perm {A} (d : A) k order pairs ds row :
  order < 2 -> length pairs = k -> 0 < k -> length row = 2 * k ->
  do_swap_row (2 * k) order pairs = Ok ds ->
  Permutation row
    (where_row ds (swap_rows d row (swap_idxs (2 * k) order) (swap_inn (2 * k) order)) row).
Proof.
  intros Ho Hl Hk Hr E. destruct (do_swap_ok k order pairs Ho Hl Hk) as [ds' [E' [Hds _]]].
  assert (ds' = ds) by congruence. subst ds'.
  apply (perm_of_invol d _ _ (fun i => if nth i ds false then partner (2 * k) order i else i)).
  - rewrite where_row_length by (rewrite ?swap_rows_length; lia). lia.
  - intros i Hi. rewrite Hr in *. destruct (nth i ds false) eqn:Ei.
    + split; [apply partner_lt; assumption|].
      rewrite (do_swap_partner k order pairs ds i Ho Hl Hk Hi E), Ei.
      apply partner_invol; assumption.
    + rewrite Ei. split; [exact Hi|reflexivity].
  - intros i Hi. apply (exchange_nth d k order pairs ds row i); auto; lia.
Qed.

(** ** proposed_index is the partner *)
Lemma proposed_partner k order i : 0 < k -> order < 2 -> i < 2 * k ->
  proposed_index (2 * k) order i = partner (2 * k) order i.
Proof.
  intros Hk Ho Hi. unfold proposed_index, partner.
  destruct (Nat.Even_or_Odd i) as [[q E]|[q E]];
    (destruct (Nat.eq_dec order 0) as [->|E0]; [|assert (order = 1) by lia; subst order]).
  - replace (Nat.even (i + 0)) with true
      by (rewrite E, Nat.add_0_r, even_2; reflexivity).
    apply Nat2Z.inj. rewrite Z2Nat.id by (apply Z.mod_pos_bound; lia).
    rewrite Nat2Z.inj_mod. f_equal. rewrite E.
    replace (Z.of_nat (2 * q) mod 2)%Z with 0%Z.
    + cbn. lia.
    + rewrite Nat2Z.inj_mul. change (Z.of_nat 2) with 2%Z. rewrite Z.mul_comm, Z_mod_mult. reflexivity.
  - replace (Nat.even (i + 1)) with false by (rewrite E, even_21; reflexivity).
    apply Nat2Z.inj. rewrite Z2Nat.id by (apply Z.mod_pos_bound; lia).
    rewrite Nat2Z.inj_mod. 
    replace (Z.of_nat i mod 2)%Z with 0%Z.
    2:{ rewrite E, Nat2Z.inj_mul. change (Z.of_nat 2) with 2%Z. rewrite Z.mul_comm, Z_mod_mult. reflexivity. }
    replace (Z.of_nat (i + 2 * k - 1)) with (Z.of_nat i - 1 + 1 * Z.of_nat (2 * k))%Z by lia.
    rewrite Z_mod_plus_full. f_equal; lia.
  - replace (Nat.even (i + 0)) with false by (rewrite E, Nat.add_0_r, even_21; reflexivity).
    apply Nat2Z.inj. rewrite Z2Nat.id by (apply Z.mod_pos_bound; lia).
    rewrite Nat2Z.inj_mod.
    replace (Z.of_nat i mod 2)%Z with 1%Z.
    2:{ rewrite E. replace (Z.of_nat (2 * q + 1)) with (1 + Z.of_nat q * 2)%Z by lia.
        rewrite Z_mod_plus_full. reflexivity. }
    replace (Z.of_nat (i + 2 * k - 1)) with (Z.of_nat i - 1 + 1 * Z.of_nat (2 * k))%Z by lia.
    rewrite Z_mod_plus_full. f_equal; lia.
  - replace (Nat.even (i + 1)) with true
      by (rewrite E; replace (2 * q + 1 + 1) with (2 * (q + 1)) by lia; rewrite even_2; reflexivity).
    apply Nat2Z.inj. rewrite Z2Nat.id by (apply Z.mod_pos_bound; lia).
    rewrite Nat2Z.inj_mod. f_equal.
    replace (Z.of_nat i mod 2)%Z with 1%Z.
    2:{ rewrite E. replace (Z.of_nat (2 * q + 1)) with (1 + Z.of_nat q * 2)%Z by lia.
        rewrite Z_mod_plus_full. reflexivity. }
    change (Z.of_nat 1 mod 2)%Z with 1%Z. lia.
Qed.

(** ** Runs *)
Fixpoint nsum (l : list nat) : nat := match l with [] => 0 | x :: l => x + nsum l end.
Lemma nsum_perm a b : Permutation a b -> nsum a = nsum b.
Proof. induction 1; cbn [nsum]; lia. Qed.
Lemma nsum_repeat0 n : nsum (repeat 0 n) = 0.
Proof. induction n; cbn [repeat nsum]; lia. Qed.
Lemma nsum_list_sum l : nsum l = list_sum l.
Proof. induction l as [|x l IH]; [reflexivity|]. cbn [nsum]. rewrite IH. reflexivity. Qed.
Lemma nsum_accept (a : list nat) (b : list bool) : length a = length b ->
  nsum (map (fun t => fst t + b2n (snd t)) (combine a b)) = nsum a + accepted_in b.
Proof.
  revert b; induction a as [|x a IH]; intros [|y b] H; cbn [length] in H; try discriminate; [reflexivity|].
  cbn [combine map nsum fst snd]. rewrite IH by lia. unfold accepted_in. cbn [filter].
  destruct y; cbn [b2n length]; lia.
Qed.

Definition pinv (n : nat) (s : pchain) : Prop :=
  p_beta s = betas n /\ p_zero s < n /\ length (p_acc s) = n.

Lemma sweep_inv k state i o s : 0 < k -> outcome_ok (2 * k) o -> p_zero state < 2 * k ->
  pinv (2 * k) s ->
  exists s', pt_sweep (2 * k) state i o s = Ok s' /\ pinv (2 * k) s' /\
    nsum (p_acc s') = nsum (p_acc s) + accepted_in (o_accept o).
Proof.
  intros Hk [Ho [Ha Hp]] Hz [I1 [I2 I3]]. unfold pt_sweep.
  assert (Hp' : length (o_pairs o) = k).
  { rewrite Hp. rewrite Nat.mul_comm. apply Nat.div_mul. lia. }
  destruct (do_swap_ok k (o_order o) (o_pairs o) Ho Hp' Hk) as [ds [E [Hl _]]].
  rewrite E. cbn [bind]. eexists. split; [reflexivity|].
  set (acc := map (fun t => fst t + b2n (snd t)) (combine (p_acc s) (o_accept o))).
  assert (Hacc : length acc = 2 * k) by (unfold acc; rewrite map_length, combine_length; lia).
  split.
  - split; [exact I1|]. cbn [p_zero p_acc]. split.
    + destruct (nth (p_zero state) ds false); [|exact I2].
      rewrite proposed_partner by assumption. apply partner_lt; assumption.
    + rewrite where_row_length; [exact Hl| |]; rewrite swap_rows_length; lia.
  - cbn [p_acc]. rewrite <- (nsum_perm _ _ (exchange_perm 0 k (o_order o) (o_pairs o) ds acc Ho Hp' Hk Hacc E)).
    unfold acc. apply nsum_accept. lia.
Qed.

Lemma sweeps_inv k state : 0 < k -> p_zero state < 2 * k -> forall os i s,
  Forall (outcome_ok (2 * k)) os -> pinv (2 * k) s ->
  exists s', pt_sweeps (2 * k) state i os s = Ok s' /\ pinv (2 * k) s' /\
    nsum (p_acc s') = nsum (p_acc s) + nsum (map (fun o => accepted_in (o_accept o)) os).
Proof.
  intros Hk Hz. induction os as [|o os IH]; intros i s Hos Hi; cbn [pt_sweeps map nsum].
  - exists s. repeat split; try apply Hi; lia.
  - inversion Hos; subst. destruct (sweep_inv k state i o s Hk H1 Hz Hi) as [s1 [E1 [J1 C1]]].
    rewrite E1. cbn [bind]. destruct (IH (S i) s1 H2 J1) as [s2 [E2 [J2 C2]]].
    exists s2. repeat split; try assumption; try apply J2. lia.
Qed.

Lemma next_inv k os s : 0 < k -> Forall (outcome_ok (2 * k)) os -> pinv (2 * k) s ->
  exists s' r, pt_next (2 * k) os s = Ok (s', r) /\ pinv (2 * k) s' /\ r = p_zero s' /\
    nsum (p_acc s') = nsum (p_acc s) + nsum (map (fun o => accepted_in (o_accept o)) os).
Proof.
  intros Hk Hos Hi. unfold pt_next.
  destruct (sweeps_inv k s Hk (proj1 (proj2 Hi)) os 0 s Hos Hi) as [s1 [E1 [J1 C1]]].
  rewrite E1. cbn [bind]. eexists. eexists. split; [reflexivity|]. split; [exact J1|].
  split; [reflexivity|exact C1].
Qed.

Lemma run_inv k : 0 < k -> forall ops s, Forall (op_ok (2 * k)) ops -> pinv (2 * k) s ->
  exists s', pt_run (2 * k) ops s = Ok s' /\ pinv (2 * k) s' /\
    nsum (p_acc s') = accepted_since ops (nsum (p_acc s)).
Proof.
  intros Hk. induction ops as [|[|os] ops IH]; intros s Hops Hi; cbn [pt_run accepted_since].
  - exists s. repeat split; try apply Hi.
  - inversion Hops; subst. destruct (IH (pt_reset (2 * k) s) H2) as [s' [E [J C]]].
    + destruct Hi as [I1 [I2 I3]]. repeat split; try assumption. cbn [p_acc pt_reset]. apply repeat_length.
    + exists s'. split; [exact E|]. split; [exact J|]. rewrite C. f_equal. cbn [p_acc pt_reset]. apply nsum_repeat0.
  - inversion Hops; subst. destruct (next_inv k os s Hk H1 Hi) as [s1 [r [E1 [J1 [_ C1]]]]].
    rewrite E1. cbn [bind fst]. destruct (IH s1 H2 J1) as [s2 [E2 [J2 C2]]].
    exists s2. split; [exact E2|]. split; [exact J2|]. rewrite C2. f_equal. rewrite C1, (nsum_list_sum (map _ os)). reflexivity.
Qed.

Lemma init_inv k : 0 < k -> pinv (2 * k) (pt_init (2 * k)).
Proof.
  intros Hk. repeat split; cbn [pt_init p_zero p_acc]; [lia|apply repeat_length].
Qed.

Lemma run_exch n : forall ops s s', pt_run n ops s = Ok s' -> p_exch s' = sweeps_since ops (p_exch s).
Proof.
  induction ops as [|[|os] ops IH]; intros s s' H; cbn [pt_run sweeps_since] in *.
  - injection H as <-. reflexivity.
  - apply IH in H. exact H.
  - unfold pt_next in H. destruct (pt_sweeps n s 0 os s) as [t|]; cbn [bind fst] in H; [|discriminate].
    apply IH in H. exact H.
Qed.

Lemma run_main k ops : 0 < k -> Forall (op_ok (2 * k)) ops ->
  exists s, pt_run (2 * k) ops (pt_init (2 * k)) = Ok s /\
    Permutation (betas (2 * k)) (p_beta s) /\ p_zero s < 2 * k /\
    length (p_acc s) = 2 * k /\ list_sum (p_acc s) = accepted_since ops 0 /\
    p_exch s = sweeps_since ops 0.
Proof.
  intros Hk H. destruct (run_inv k Hk ops _ H (init_inv k Hk)) as [s [E [[J1 [J2 J3]] C]]].
  exists s. split; [exact E|]. split; [rewrite J1; apply Permutation_refl|].
  split; [exact J2|]. split; [exact J3|]. split.
  - rewrite <- nsum_list_sum, C. f_equal. cbn [p_acc pt_init]. apply nsum_repeat0.
  - apply run_exch in E. exact E.
Qed.

Lemma exchange_main k order pairs beta :
  0 < k -> order < 2 -> length pairs = k -> length beta = 2 * k ->
  exists beta', pt_exchange (2 * k) order pairs beta = Ok beta' /\ Permutation beta beta' /\
    forall p, p < k -> 
      let i := 2 * p + order in let j := (2 * p + order + 1) mod (2 * k) in
      nth i beta' 0%Q = (if nth p pairs false then nth j beta 0%Q else nth i beta 0%Q) /\
      nth j beta' 0%Q = (if nth p pairs false then nth i beta 0%Q else nth j beta 0%Q).
Proof.
  intros Hk Ho Hp Hb. unfold pt_exchange.
  destruct (do_swap_ok k order pairs Ho Hp Hk) as [ds [E [Hl [D1 D2]]]]. rewrite E. cbn [bind].
  eexists. split; [reflexivity|]. split; [apply (exchange_perm 0%Q k order pairs ds); auto|].
  intros p Hpk. set (i := 2 * p + order). set (j := (i + 1) mod (2 * k)).
  assert (Hj : j < 2 * k) by (apply Nat.mod_upper_bound; lia).
  split.
  - rewrite (exchange_nth 0%Q k order pairs ds beta i); auto; [|unfold i; lia].
    unfold i at 1. rewrite D1 by exact Hpk. destruct (nth p pairs false); [|reflexivity].
    unfold i. rewrite partner_first by assumption. reflexivity.
  - rewrite (exchange_nth 0%Q k order pairs ds beta j); auto.
    unfold j at 1, i at 1. rewrite D2 by exact Hpk. destruct (nth p pairs false); [|reflexivity].
    unfold j, i. rewrite partner_second by assumption. reflexivity.
Qed.

Lemma tracks_main k o s beta' : 0 < k -> outcome_ok (2 * k) o -> pinv (2 * k) s ->
  pt_exchange (2 * k) (o_order o) (o_pairs o) (p_beta s) = Ok beta' ->
  exists s' r, pt_next (2 * k) [o] s = Ok (s', r) /\ nth r beta' 0%Q = nth (p_zero s) (p_beta s) 0%Q.
Proof.
  intros Hk Hok Hi E. pose proof Hok as [Ho [Ha Hp]]. pose proof Hi as [I1 [I2 I3]].
  assert (Hp' : length (o_pairs o) = k).
  { rewrite Hp. rewrite Nat.mul_comm. apply Nat.div_mul. lia. }
  destruct (do_swap_ok k (o_order o) (o_pairs o) Ho Hp' Hk) as [ds [Ed [Hl _]]].
  unfold pt_exchange in E. rewrite Ed in E. cbn [bind] in E.
  unfold pt_next. cbn [pt_sweeps]. unfold pt_sweep. rewrite Ed. cbn [bind].
  eexists. eexists. split; [reflexivity|]. cbn [p_zero].
  assert (Eb : beta' = where_row ds (swap_rows 0%Q (p_beta s) (swap_idxs (2 * k) (o_order o))
      (swap_inn (2 * k) (o_order o))) (p_beta s)) by congruence.
  assert (Hb : length (p_beta s) = 2 * k) by (rewrite I1; unfold betas; rewrite map_length; apply seq_length).
  rewrite Eb. destruct (nth (p_zero s) ds false) eqn:Ez.
  - rewrite proposed_partner by assumption.
    rewrite (exchange_nth 0%Q k (o_order o) (o_pairs o) ds); auto; [|apply partner_lt; assumption].
    rewrite (do_swap_partner k (o_order o) (o_pairs o) ds) by assumption. rewrite Ez.
    rewrite partner_invol by assumption. reflexivity.
  - rewrite (exchange_nth 0%Q k (o_order o) (o_pairs o) ds); auto. rewrite Ez. reflexivity.
Qed.

Lemma odd_main n o os s : Nat.odd n = true ->
  pt_post_init true (Z.of_nat n) = Ok tt /\ pt_next n (o :: os) s = Err ValueError.
Proof.
  intros H. split; [reflexivity|]. unfold pt_next. cbn [pt_sweeps]. unfold pt_sweep, do_swap_row.
  rewrite H. reflexivity.
Qed.

Lemma sweeps_none n state : forall os i s s', p_pos s = None ->
  pt_sweeps n state i os s = Ok s' -> p_pos s' = None.
Proof.
  induction os as [|o os IH]; intros i s s' Hn E; cbn [pt_sweeps] in E; [congruence|].
  unfold pt_sweep in E. destruct (do_swap_row n (o_order o) (o_pairs o)) as [ds|]; cbn [bind] in E; [|discriminate].
  revert E. apply IH. cbn [p_pos]. rewrite Hn. reflexivity.
Qed.

Lemma position_main n o os s r : pt_next n (o :: os) (pt_init n) = Ok (s, r) -> p_pos s = None.
Proof.
  unfold pt_next. cbn [pt_sweeps].
  destruct (pt_sweep n (pt_init n) 0 o (pt_init n)) as [s1|] eqn:E1; cbn [bind]; [|discriminate].
  destruct (pt_sweeps n (pt_init n) 1 os s1) as [s2|] eqn:E2; cbn [bind]; [|discriminate].
  intros E. injection E as E _. subst s. cbn [p_pos]. revert E2. apply sweeps_none.
  unfold pt_sweep in E1. destruct (do_swap_row n (o_order o) (o_pairs o)) as [ds|]; cbn [bind] in E1; [|discriminate].
  injection E1 as E1. subst s1. reflexivity.
Qed.
