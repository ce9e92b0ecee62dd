(** * Proofs: the layers *)
From Coq Require Import ZArith List Bool Lia.
From Verif Require Import Base Dense_Model Dense_Spec Dense_Proofs.
Import ListNotations.
Open Scope nat_scope.

Lemma expand_seg {A} : forall n (t : tensor A) P Q, shape t = P ++ Q ->
  exists u, expand_all t (seq (length P) n) = Ok u /\ shape u = P ++ repeat 1 n ++ Q /\
    forall p e q, length p = length P -> length e = n -> at_ u (p ++ e ++ q) = at_ t (p ++ q).
Proof.
  induction n as [|n IH]; intros t P Q Ht.
  - exists t. split; [reflexivity|]. split; [exact Ht|]. intros p e q _ He. destruct e; [reflexivity|discriminate].
  - cbn [seq expand_all]. unfold expand. rewrite Ht. rewrite app_length.
    destruct (Nat.leb_spec (length P) (length P + length Q)) as [_|H]; [|lia]. cbn [bind].
    rewrite (firstn_app_exact P), (skipn_app_exact P) by reflexivity.
    match goal with |- context [expand_all ?t1 _] => set (t1' := t1) end.
    destruct (IH t1' (P ++ [1]) Q) as (u & E1 & E2 & E3).
    { unfold t1'. cbn [shape]. rewrite <- app_assoc. reflexivity. }
    rewrite app_length in E1. cbn [length] in E1. replace (length P + 1) with (S (length P)) in E1 by lia.
    exists u. split; [exact E1|]. split; [rewrite E2, <- app_assoc; reflexivity|].
    intros p e q Hp He. destruct e as [|e0 e]; [discriminate|].
    transitivity (at_ u ((p ++ [e0]) ++ e ++ q)); [rewrite <- app_assoc; reflexivity|].
    rewrite E3; [|rewrite !app_length; cbn; lia|cbn in He; lia]. unfold t1'. cbn [at_].
    rewrite <- app_assoc. rewrite (firstn_app_exact p) by exact Hp. f_equal. f_equal.
    change ([e0] ++ q) with (e0 :: q). replace (p ++ e0 :: q) with ((p ++ [e0]) ++ q) by (rewrite <- app_assoc; reflexivity).
    apply skipn_app_exact. rewrite app_length. cbn. lia.
Qed.

Lemma bshape_left a b : Forall2 (fun x y => x = y \/ y = 1) a b -> bshape a b = Ok a.
Proof.
  induction 1 as [|x y a b H _ IH]; [reflexivity|]. cbn [bshape]. rewrite IH. cbn [bind].
  destruct (Nat.eqb_spec x y); [reflexivity|]. destruct H as [H| ->]; [congruence|]. destruct (Nat.eqb_spec x 1); [congruence|]. reflexivity.
Qed.
Lemma bshape_short a : bshape a [] = Ok a.
Proof. destruct a; reflexivity. Qed.
Lemma fit_index s i : index_of s i -> fit s i = i.
Proof.
  intros H. induction H as [|j n i s Hlt _ IH]; [reflexivity|]. cbn. rewrite IH. destruct (Nat.eqb_spec n 1); [f_equal; lia|reflexivity].
Qed.
Lemma fit_app s i s' i' : length s = length i -> fit (s ++ s') (i ++ i') = fit s i ++ fit s' i'.
Proof. revert i. induction s as [|n s IH]; intros [|j i] H; cbn in *; try lia; [reflexivity|]. f_equal. apply IH. lia. Qed.
Lemma fit_ones n : forall i, length i = n -> fit (repeat 1 n) i = repeat 0 n.
Proof. induction n as [|n IH]; intros [|j i] H; cbn in *; try lia; [reflexivity|]. f_equal. apply IH. lia. Qed.
Lemma index_length s i : index_of s i -> length i = length s.
Proof. induction 1; cbn; congruence. Qed.

Lemma index_app s s' i i' : index_of s i -> index_of s' i' -> index_of (s ++ s') (i ++ i').
Proof. apply Forall2_app. Qed.

Lemma bat_full {A} (t : tensor A) i : index_of (shape t) i -> bat t i = at_ t i.
Proof. intros H. unfold bat. rewrite (index_length _ _ H), Nat.sub_diag. cbn [skipn]. rewrite (fit_index _ _ H). reflexivity. Qed.

Lemma F2_refl (l : list nat) : Forall2 (fun x y => x = y \/ y = 1) l l.
Proof. induction l; constructor; auto. Qed.
Lemma F2_ones (l : list nat) : Forall2 (fun x y => x = y \/ y = 1) l (repeat 1 (length l)).
Proof. induction l; constructor; auto. Qed.

Lemma add_general {A} (add : A -> A -> A) (y u : tensor A) B E F : shape y = B ++ E ++ F -> shape u = B ++ repeat 1 (length E) ++ F ->
  exists z, add_t add y u = Ok z /\ shape z = B ++ E ++ F /\
    forall b e f, index_of B b -> index_of E e -> index_of F f ->
      at_ z (b ++ e ++ f) = add (at_ y (b ++ e ++ f)) (at_ u (b ++ repeat 0 (length E) ++ f)).
Proof.
  intros Hy Hu. unfold add_t. rewrite (bshape_left (rev (shape y)) (rev (shape u))).
  - cbn [bind]. eexists. split; [reflexivity|]. cbn [shape at_]. split; [rewrite rev_involutive; exact Hy|].
    intros b e f Hb He Hf. rewrite bat_full by (rewrite Hy; auto using index_app). f_equal.
    unfold bat. rewrite Hu. rewrite !app_length, repeat_length, (index_length _ _ Hb), (index_length _ _ He), (index_length _ _ Hf), Nat.sub_diag. cbn [skipn].
    rewrite fit_app by (symmetry; apply index_length, Hb). rewrite fit_app by (rewrite repeat_length; symmetry; apply index_length, He).
    rewrite (fit_index _ _ Hb), (fit_index _ _ Hf), fit_ones by (apply index_length, He). reflexivity.
  - rewrite Hy, Hu, !rev_app_distr. apply Forall2_app; [apply Forall2_app|].
    + apply F2_refl.
    + assert (G : forall n, rev (repeat 1 n) = repeat 1 n).
      { intros n. induction n as [|n IH]; [reflexivity|]. cbn [repeat rev]. rewrite IH. clear. induction n; cbn; [reflexivity|f_equal; assumption]. }
      rewrite G, <- (rev_length E). apply F2_ones.
    + apply F2_refl.
Qed.

Section Sums.
Context {A : Type} (zero : A) (add mul : A -> A -> A).
Hypothesis add_assoc : forall a b c, add a (add b c) = add (add a b) c.
Hypothesis add_0_l : forall a, add zero a = a.
Hypothesis add_0_r : forall a, add a zero = a.

Lemma as_dims_seq s n nd : s + n <= nd -> as_dims (map Z.of_nat (seq s n)) nd = Ok (seq s n).
Proof.
  intros H. unfold as_dims.
  assert (E1 : forallb (fun ax => (- Z.of_nat nd <=? ax)%Z && (ax <? Z.of_nat nd)%Z) (map Z.of_nat (seq s n)) = true).
  { apply forallb_forall. intros z Hz. apply in_map_iff in Hz. destruct Hz as (d & <- & Hd). apply in_seq in Hd. apply andb_true_iff. split; [apply Z.leb_le; lia|apply Z.ltb_lt; lia]. }
  assert (E2 : forallb (fun ax => (0 <=? ax)%Z) (map Z.of_nat (seq s n)) = true).
  { apply forallb_forall. intros z Hz. apply in_map_iff in Hz. destruct Hz as (d & <- & Hd). apply Z.leb_le. lia. }
  rewrite E1, E2, map_map. f_equal. rewrite <- (map_id (seq s n)) at 2. apply map_ext. intros d. apply Nat2Z.id.
Qed.
Lemma normalize_nonneg s n nd : normalize_axes (map Z.of_nat (seq s n)) nd = map Z.of_nat (seq s n).
Proof.
  unfold normalize_axes. rewrite map_map. apply map_ext. intros d. destruct (Z.leb_spec 0 (Z.of_nat d)); [reflexivity|lia].
Qed.
Lemma fold_max_seq n : forall s d, (d <= Z.of_nat s)%Z -> fold_right Z.max d (map Z.of_nat (seq s n)) = if n =? 0 then d else Z.of_nat (s + n - 1).
Proof.
  induction n as [|n IH]; intros s d Hd; [reflexivity|]. cbn [seq map fold_right Nat.eqb]. rewrite IH by lia. destruct (Nat.eqb_spec n 0); lia.
Qed.
Lemma batch_check_seq n : batch_check (map Z.of_nat (seq 0 n)) = true.
Proof.
  destruct n as [|n]; [reflexivity|]. unfold batch_check. cbn [seq map nth].
  change (Z.of_nat 0 :: map Z.of_nat (seq 1 n)) with (map Z.of_nat (seq 0 (S n))). rewrite (fold_max_seq (S n) 0 (Z.of_nat 0)) by lia. cbn [Nat.eqb].
  replace (Z.to_nat (Z.of_nat (0 + S n - 1) + 1)) with (S n) by lia.
  assert (G : forall l : list Z, forallb (fun d => existsb (Z.eqb d) l) l = true).
  { intros l. apply forallb_forall. intros z Hz. apply existsb_exists. exists z. split; [exact Hz|apply Z.eqb_refl]. }
  rewrite !G. reflexivity.
Qed.

Lemma trailing_thm (x kernel : tensor A) (bias : option (tensor A)) axis B E C F :
  shape x = B ++ E ++ C -> shape kernel = B ++ C ++ F -> (forall t, bias = Some t -> shape t = B ++ F) ->
  normalize_axes axis (length (shape x)) = map Z.of_nat (seq (length B + length E) (length C)) ->
  exists y, dense_general zero add mul F axis (map Z.of_nat (seq 0 (length B))) kernel bias x = Ok y /\ shape y = B ++ E ++ F /\
    forall b e f, index_of B b -> index_of E e -> index_of F f ->
      at_ y (b ++ e ++ f) =
      let s := nested_sum zero add C (fun c => mul (at_ x (b ++ e ++ c)) (at_ kernel (b ++ c ++ f))) in
      match bias with None => s | Some t => add s (at_ t (b ++ f)) end.
Proof.
  intros Hx Hk Hb Ha. destruct (dot_trailing zero add mul x kernel B E C F Hx Hk) as (y & Y1 & Y2 & Y3).
  assert (Nx : length (shape x) = length B + length E + length C) by (rewrite Hx, !app_length; lia).
  unfold dense_general. rewrite batch_check_seq. cbn [negb]. rewrite Ha, normalize_nonneg.
  rewrite !as_dims_seq by lia. cbn [bind]. rewrite !seq_length.
  assert (D1 : dims x (seq 0 (length B)) = B) by (apply (dims_seg x [] B (E ++ C)); exact Hx).
  assert (D4 : dims x (seq (length B + length E) (length C)) = C).
  { rewrite <- app_length. apply (dims_seg x (B ++ E) C []). rewrite app_nil_r, <- app_assoc. exact Hx. }
  rewrite D1, D4, Hk, list_eqb_refl. cbn [negb]. rewrite Y1. cbn [bind].
  destruct bias as [t|].
  - rewrite (Hb t eq_refl), list_eqb_refl. cbn [negb]. rewrite Nx.
    rewrite (free_mid (length B) (length E) (length C)) by (intros d; rewrite in_app_iff, !in_seq; lia).
    destruct (expand_seg (length E) t B F (Hb t eq_refl)) as (u & U1 & U2 & U3). rewrite U1. cbn [bind].
    destruct (add_general add y u B E F Y2 U2) as (z & Z1 & Z2 & Z3). exists z. split; [exact Z1|]. split; [exact Z2|].
    intros b e f Ib Ie If. rewrite (Z3 b e f Ib Ie If). cbv zeta.
    rewrite (Y3 b e f) by (apply index_length; assumption). rewrite (total_box zero add add_assoc add_0_l add_0_r). f_equal.
    apply U3; [apply index_length, Ib|apply repeat_length].
  - exists y. split; [reflexivity|]. split; [exact Y2|]. intros b e f Ib Ie If. cbv zeta.
    rewrite (Y3 b e f) by (apply index_length; assumption). apply (total_box zero add add_assoc add_0_l add_0_r).
Qed.

(** Axes counted from the end *)
Lemma normalize_last nd n : n <= nd ->
  normalize_axes (map (fun i => Z.of_nat i - Z.of_nat n)%Z (seq 0 n)) nd = map Z.of_nat (seq (nd - n) n).
Proof.
  intros H. unfold normalize_axes. rewrite map_map.
  assert (E : seq (nd - n) n = map (fun i => nd - n + i) (seq 0 n)).
  { generalize (nd - n). intros k. clear. revert k. induction n as [|n IH]; intros k; [reflexivity|]. cbn [seq map]. f_equal; [lia|].
    rewrite (IH (S k)), <- (seq_shift n 0), map_map.
    apply map_ext. intros i. lia. }
  rewrite E, map_map. apply map_ext_in. intros i Hi. apply in_seq in Hi.
  destruct (Z.leb_spec 0 (Z.of_nat i - Z.of_nat n)); lia.
Qed.

Lemma dense_thm (x kernel : tensor A) (bias : option (tensor A)) E n features :
  shape x = E ++ [n] -> shape kernel = [n; features] -> (forall t, bias = Some t -> shape t = [features]) ->
  exists y, dense zero add mul features kernel bias x = Ok y /\ shape y = E ++ [features] /\
    forall e j, index_of E e -> j < features ->
      at_ y (e ++ [j]) =
      let s := nested_sum zero add [n] (fun i => mul (at_ x (e ++ i)) (at_ kernel (i ++ [j]))) in
      match bias with None => s | Some t => add s (at_ t [j]) end.
Proof.
  intros Hx Hk Hb. destruct (dot_trailing zero add mul x kernel [] E [n] [features] Hx Hk) as (y & Y1 & Y2 & Y3).
  assert (Nx : length (shape x) = length E + 1) by (rewrite Hx, !app_length; cbn; lia).
  unfold dense. rewrite Nx. destruct (Nat.eqb_spec (length E + 1) 0); [lia|].
  replace (length E + 1 - 1) with (length E) by lia. rewrite Hx, app_nth2, Nat.sub_diag by lia. cbn [nth]. rewrite Hk, list_eqb_refl. cbn [negb].
  cbn [length seq Nat.add] in Y1. rewrite Y1. cbn [bind]. cbn [app length] in Y2, Y3.
  assert (Y4 : forall e j, index_of E e -> at_ y (e ++ [j]) = nested_sum zero add [n] (fun i => mul (at_ x (e ++ i)) (at_ kernel (i ++ [j])))).
  { intros e j Ie. pose proof (Y3 [] e [j] eq_refl (index_length _ _ Ie) eq_refl) as Y5. cbn [app] in Y5. rewrite Y5. apply (total_box zero add add_assoc add_0_l add_0_r). }
  destruct bias as [t|].
  - rewrite (Hb t eq_refl), list_eqb_refl. cbn [negb]. unfold add_t. rewrite Y2, (Hb t eq_refl), rev_app_distr. cbn [rev app].
    cbn [bshape]. rewrite bshape_short. cbn [bind]. rewrite Nat.eqb_refl. cbn [bind].
    eexists. split; [reflexivity|]. cbn [shape at_]. split; [cbn [rev]; rewrite rev_involutive; reflexivity|].
    intros e j Ie Hj. cbv zeta. rewrite bat_full by (rewrite Y2; apply index_app; [exact Ie|constructor; [exact Hj|constructor]]). rewrite Y4 by exact Ie. f_equal.
    unfold bat. rewrite (Hb t eq_refl), app_length. cbn [length]. replace (length e + 1 - 1) with (length e) by lia.
    rewrite skipn_app_exact by reflexivity. rewrite fit_index; [reflexivity|]. constructor; [exact Hj|constructor].
  - exists y. split; [reflexivity|]. split; [exact Y2|]. intros e j Ie Hj. apply Y4, Ie.
Qed.
End Sums.
