From Coq Require Import List Arith ZArith Bool Lia Permutation Ring.
From Verif Require Import Base Rings Masked_Proofs MPS_Model MPS_Spec.
Import ListNotations.
Open Scope nat_scope.

Lemma combine_app {A B} (a a' : list A) (b b' : list B) : length a = length b ->
  combine (a ++ a') (b ++ b') = combine a b ++ combine a' b'.
Proof.
  revert b. induction a as [|x a IH]; intros [|y b] H; try discriminate; [reflexivity|].
  cbn. f_equal. apply IH. cbn in H. lia.
Qed.

Lemma tile_split {A} q m (cell : list A) : q <= m -> tile m cell = tile q cell ++ tile (m - q) cell.
Proof.
  intros H. unfold tile. rewrite <- concat_app, <- repeat_app. do 2 f_equal. lia.
Qed.
Lemma tile_length {A} m (cell : list A) : length (tile m cell) = m * length cell.
Proof. unfold tile. induction m; cbn; [reflexivity|]. rewrite app_length, IHm. reflexivity. Qed.
Lemma tile_swap {A} q m (cell : list A) : q <= m -> tile m cell = tile (m - q) cell ++ tile q cell.
Proof.
  intros H. rewrite (tile_split (m - q)) by lia. do 2 f_equal. lia.
Qed.
Lemma tile_nth {A} (d : A) m (cell : list A) i : i < m * length cell ->
  nth i (tile m cell) d = nth (i mod length cell) cell d.
Proof.
  revert i. induction m as [|m IH]; intros i H; [cbn in H; lia|].
  change (tile (S m) cell) with (cell ++ tile m cell). cbn in H.
  destruct (Nat.lt_ge_cases i (length cell)) as [Hi|Hi].
  - rewrite app_nth1 by exact Hi. now rewrite Nat.mod_small.
  - rewrite app_nth2 by exact Hi. rewrite IH by lia.
    replace i with (i - length cell + 1 * length cell) at 2 by lia.
    now rewrite Nat.mod_add by lia.
Qed.

Lemma period_ok L sp p : period L sp = Ok p -> 0 < p /\ L = L / p * p.
Proof.
  unfold period. destruct sp as [z|].
  - destruct (Z.eqb_spec z 0); [discriminate|].
    destruct (Z.eqb_spec (Z.of_nat L mod z) 0) as [E|]; [|discriminate].
    destruct (Z.ltb_spec 0 z); [|discriminate]. cbn. intros H'; injection H' as <-.
    split; [lia|]. set (k := Z.to_nat z).
    assert (Hk : z = Z.of_nat k) by (subst k; lia). rewrite Hk in E.
    rewrite <- Nat2Z.inj_mod in E. pose proof (Nat.div_mod L k). lia.
  - destruct (Nat.eqb_spec L 0); [discriminate|]. intros H'; injection H' as <-.
    split; [lia|]. rewrite Nat.div_same by lia. lia.
Qed.

Lemma period_iff L z : 
  match period L (Some z) with
  | Ok p => (0 < z)%Z /\ Z.of_nat p = z /\ (z | Z.of_nat L)%Z
  | Err _ => ~ ((0 < z)%Z /\ (z | Z.of_nat L)%Z)
  end.
Proof.
  unfold period. destruct (Z.eqb_spec z 0) as [->|N]; [intros [H _]; lia|].
  destruct (Z.eqb_spec (Z.of_nat L mod z) 0) as [E|E]; cbn [andb].
  - destruct (Z.ltb_spec 0 z) as [P|P]; [|intros [? _]; lia].
    split; [exact P|]. split; [lia|]. apply Z.mod_divide; assumption.
  - intros [P D]. apply E. apply Z.mod_divide; assumption.
Qed.

(** evenly spaced local states *)
Lemma spacings_evenly a s n m : spacings (map (fun i => (a + s * Z.of_nat i)%Z) (seq m n)) = repeat s (pred n).
Proof.
  revert m. induction n as [|n IH]; intros m; [reflexivity|]. cbn [seq map].
  destruct n as [|n]; [reflexivity|]. specialize (IH (S m)). cbn [seq map] in *.
  match goal with |- spacings (?x :: ?y :: ?l) = _ =>
    change (spacings (x :: y :: l)) with ((y - x)%Z :: spacings (y :: l)) end.
  etransitivity; [apply f_equal; exact IH|]. cbn [pred repeat]. f_equal. lia.
Qed.
Lemma fold_same f (a : Z) n : (f a a = a) -> fold_left f (repeat a n) a = a.
Proof. intros E. induction n; cbn; [reflexivity|]. now rewrite E. Qed.
Lemma spacing_evenly a s d : 2 <= d -> spacing (evenly a s d) = Ok s.
Proof.
  intros H. unfold spacing, evenly. rewrite spacings_evenly. destruct d as [|[|d]]; [lia|lia|].
  cbn [pred repeat]. unfold zmaxl, zminl. rewrite !fold_same by (apply Z.max_id || apply Z.min_id).
  now rewrite Z.eqb_refl.
Qed.
Lemma zmin_above a l : Forall (fun x => (a <= x)%Z) l -> zminl a l = a.
Proof.
  unfold zminl. induction l as [|x l IH]; intros F; [reflexivity|]. apply Forall_cons_iff in F.
  destruct F as [H F]. cbn. rewrite Z.min_l by exact H. auto.
Qed.
Lemma bias_evenly a s d : 0 < d -> (0 < s)%Z -> bias_of (evenly a s d) = a.
Proof.
  intros Hd Hs. unfold bias_of, evenly. destruct d as [|d]; [lia|]. cbn [seq map hd tl].
  replace (a + s * Z.of_nat 0)%Z with a by lia. apply zmin_above.
  apply Forall_forall. intros x Hx. apply in_map_iff in Hx. destruct Hx as [i [<- _]]. nia.
Qed.
Lemma index_evenly a s d n : (0 < s)%Z -> n < d -> index_of a s d (a + s * Z.of_nat n) = n.
Proof.
  intros Hs Hn. unfold index_of.
  replace (a + s * Z.of_nat n - a)%Z with (Z.of_nat n * s)%Z by lia. rewrite Z.quot_mul by lia.
  destruct (Z.ltb_spec (Z.of_nat n) 0); lia.
Qed.

Section WithRing.
  Variable C : cring.
  Hypothesis laws : cring_laws C.
  Add Ring Rm : (cr_ring C laws).
  Notation "0" := (r0 C).
  Infix "+" := (radd C).
  Infix "*" := (rmul C).

  Lemma mget_mtab b f i j : i < b -> j < b -> mget C (mtab C b f) i j = f i j.
  Proof.
    intros Hi Hj. unfold mget, mtab. rewrite nth_map_seq' by exact Hi. rewrite nth_map_seq' by exact Hj. reflexivity.
  Qed.

  Lemma delta_l b f i : i < b -> fsum C b (fun k => (if i =? k then r1 C else 0) * f k) = f i.
  Proof.
    intros H. rewrite <- (fsum_delta C laws b f i H). apply fsum_ext. intros k _.
    rewrite (Nat.eqb_sym i k). destruct (k =? i); ring.
  Qed.
  Lemma delta_r b f i : i < b -> fsum C b (fun k => f k * (if k =? i then r1 C else 0)) = f i.
  Proof.
    intros H. rewrite <- (fsum_delta C laws b f i H). apply fsum_ext. intros k _. destruct (k =? i); ring.
  Qed.

  Lemma mprod_app b Ms Ns i j : i < b ->
    mprod C b (Ms ++ Ns) i j = fsum C b (fun k => mprod C b Ms i k * mprod C b Ns k j).
  Proof.
    revert i. induction Ms as [|M Ms IH]; intros i Hi; cbn [mprod app].
    - symmetry. apply (delta_l b (fun k => mprod C b Ns k j) i Hi).
    - transitivity (fsum C b (fun k => fsum C b (fun l => M i k * (mprod C b Ms k l * mprod C b Ns l j)))).
      + apply fsum_ext. intros k Hk. rewrite IH by exact Hk. symmetry. apply fsum_scal, laws.
      + rewrite (fsum_swap C laws). apply fsum_ext. intros l Hl. rewrite <- (fsum_scal_r C laws).
        apply fsum_ext. intros k Hk. ring.
  Qed.

  Lemma mtrace_rotate b Ms Ns : mtrace C b (Ms ++ Ns) = mtrace C b (Ns ++ Ms).
  Proof.
    unfold mtrace.
    rewrite (fsum_ext C b (fun i => mprod C b (Ms ++ Ns) i i) (fun i => fsum C b (fun k => mprod C b Ms i k * mprod C b Ns k i)))
      by (intros; now apply mprod_app).
    rewrite (fsum_swap C laws). apply fsum_ext. intros k Hk. rewrite mprod_app by exact Hk.
    apply fsum_ext. intros i Hi. ring.
  Qed.

  Lemma fold_entry b sel : forall M i j, i < b -> j < b ->
    mget C (fold_left (fun e t => matmul C b e t) sel M) i j
    = fsum C b (fun k => mget C M i k * mprod C b (map (mget C) sel) k j).
  Proof.
    induction sel as [|t sel IH]; intros M i j Hi Hj; cbn [fold_left map mprod].
    - symmetry. apply (delta_r b (fun k => mget C M i k) j Hj).
    - rewrite IH by assumption.
      transitivity (fsum C b (fun k => fsum C b (fun l => mget C M i l * mget C t l k * mprod C b (map (mget C) sel) k j))).
      + apply fsum_ext. intros k Hk. unfold matmul. rewrite mget_mtab by assumption.
        symmetry. apply fsum_scal_r, laws.
      + rewrite (fsum_swap C laws). apply fsum_ext. intros l Hl. rewrite <- (fsum_scal C laws).
        apply fsum_ext. intros k Hk. ring.
  Qed.

  Lemma trace_entry b sel :
    trace C b (fold_left (fun e t => matmul C b e t) sel (eye C b)) = mtrace C b (map (mget C) sel).
  Proof.
    unfold trace, mtrace. apply fsum_ext. intros i Hi. rewrite fold_entry by assumption.
    transitivity (fsum C b (fun k => (if i =? k then r1 C else 0) * mprod C b (map (mget C) sel) k i)).
    - apply fsum_ext. intros k Hk. unfold eye. now rewrite mget_mtab by assumption.
    - apply (delta_l b (fun k => mprod C b (map (mget C) sel) k i) i Hi).
  Qed.

  (** the argument of the logarithm *)
  Definition amplitude (b : nat) (idx : Z -> nat) (tensors : list (list (list (list (T C))))) (x : list Z) : T C :=
    mtrace C b (map (fun t => mget C (nth (idx (snd t)) (fst t) [])) (combine tensors x)).

  Lemma mps_eq ls L sy b k x :
    mps C ls L sy b k x =
    (let? sp := spacing ls in let? p := period L sy in
     if negb (length x =? length (tile (L / p) (params C b k))) then Err ValueError else
     Ok (amplitude b (index_of (bias_of ls) sp (length ls)) (tile (L / p) (params C b k)) x)).
  Proof.
    unfold mps. destruct (spacing ls) as [sp|]; [cbn [bind]|reflexivity].
    destruct (period L sy) as [p|]; [cbn [bind]|reflexivity].
    destruct (negb _); [reflexivity|]. f_equal. rewrite trace_entry. unfold amplitude. now rewrite map_map.
  Qed.

  Lemma mps_translation ls L sy b k x p q : period L sy = Ok p -> q * p <= L -> length (params C b k) = p ->
    mps C ls L sy b k (rotated (q * p) x) = mps C ls L sy b k x.
  Proof.
    intros P Hq Lk. destruct (period_ok _ _ _ P) as [Hp HL]. rewrite !mps_eq. rewrite P.
    destruct (spacing ls) as [sp|]; [cbn [bind]|reflexivity]. rewrite tile_length, Lk.
    replace (length (rotated (q * p) x)) with (length x)
      by (unfold rotated; rewrite app_length, Nat.add_comm, <- app_length, firstn_skipn; reflexivity).
    destruct (Nat.eqb_spec (length x) (L / p * p)) as [Lx|Lx]; [cbn [negb]|reflexivity]. f_equal.
    set (idx := index_of _ _ _). set (cell := params C b k) in *.
    assert (Hqm : q <= L / p) by (apply Nat.mul_le_mono_pos_r with p; lia).
    unfold amplitude.
    rewrite (tile_swap q) by exact Hqm. unfold rotated.
    rewrite combine_app by (rewrite tile_length, skipn_length, Lk, Lx; apply Nat.mul_sub_distr_r).
    rewrite map_app, mtrace_rotate, <- map_app.
    rewrite <- combine_app by (rewrite tile_length, firstn_length, Lk, Lx; nia).
    rewrite firstn_skipn, <- (tile_split q), <- (tile_swap q) by exact Hqm. reflexivity.
  Qed.

  Lemma params_length b k p d : kernel_shape C p d k -> length (params C b k) = p.
  Proof. destruct k as [k|k]; intros [L _]; cbn [params]; now rewrite map_length. Qed.

  (** entries *)
  Lemma mprod_agree b Ms Ns : Forall2 (fun M N : nat -> nat -> T C => forall i j, i < b -> j < b -> M i j = N i j) Ms Ns ->
    forall i j, i < b -> j < b -> mprod C b Ms i j = mprod C b Ns i j.
  Proof.
    induction 1 as [|M N Ms Ns E F IH]; intros i j Hi Hj; cbn [mprod]; [reflexivity|].
    apply fsum_ext. intros k Hk. rewrite E, IH by assumption. reflexivity.
  Qed.

  Lemma params_entry b k p d n s i j : kernel_shape C p d k -> n < p -> s < d -> i < b -> j < b ->
    mget C (nth s (nth n (params C b k) []) []) i j = tensor C k n s i j.
  Proof.
    intros Sh Hn Hs Hi Hj. destruct k as [k|k]; cbn [params tensor]; destruct Sh as [Lk Fk].
    - rewrite Forall_forall in Fk.
      match goal with |- context [map (map ?f) k] => set (F := f) end.
      rewrite (map_nth' (map F) []) by reflexivity.
      rewrite (nth_indep _ [] (F [])) by (rewrite map_length, Fk; [exact Hs|apply nth_In; lia]).
      rewrite map_nth. subst F. cbv beta. rewrite mget_mtab by assumption.
      unfold eye. rewrite mget_mtab by assumption. reflexivity.
    - rewrite Forall_forall in Fk.
      match goal with |- context [map (map ?f) k] => set (F := f) end.
      rewrite (map_nth' (map F) []) by reflexivity.
      rewrite (nth_indep _ [] (F [])) by (rewrite map_length, Fk; [exact Hs|apply nth_In; lia]).
      rewrite map_nth. subst F. cbv beta. rewrite mget_mtab by assumption.
      unfold eye. rewrite mget_mtab by assumption. reflexivity.
  Qed.

  Lemma amplitude_formula b k p d a s m ns : kernel_shape C p d k -> (0 < s)%Z -> 0 < p ->
    length ns = (m * p)%nat -> Forall (fun n => n < d) ns ->
    amplitude b (index_of a s d) (tile m (params C b k)) (map (fun n => (a + s * Z.of_nat n)%Z) ns)
    = mtrace C b (map (fun i => tensor C k (i mod p) (nth i ns O)) (seq O (m * p))).
  Proof.
    intros Sh Hs Hp Ln Fn. unfold amplitude, mtrace. apply fsum_ext. intros e He. apply mprod_agree; try assumption.
    pose proof (params_length b k p d Sh) as Lp.
    set (xs := map (fun n => (a + s * Z.of_nat n)%Z) ns).
    assert (E : combine (tile m (params C b k)) xs
       = map (fun i => (nth (i mod p) (params C b k) [], (a + s * Z.of_nat (nth i ns O))%Z)) (seq O (m * p))).
    { assert (Lxs : length xs = (m * p)%nat) by (subst xs; rewrite map_length; exact Ln).
      apply nth_ext with ([], 0%Z) ([], 0%Z).
      - rewrite combine_length, tile_length, map_length, seq_length, Lp, Lxs. lia.
      - rewrite combine_length, tile_length, Lp, Lxs, Nat.min_id. intros i Hi.
        rewrite combine_nth by (rewrite tile_length, Lp, Lxs; reflexivity).
        rewrite nth_map_seq' by exact Hi. rewrite tile_nth by (rewrite Lp; exact Hi). rewrite Lp, Nat.add_0_l. f_equal.
        subst xs. rewrite (nth_indep _ 0%Z ((fun n => (a + s * Z.of_nat n)%Z) O)) by (rewrite map_length; lia).
        now rewrite (map_nth (fun n => (a + s * Z.of_nat n)%Z)). }
    rewrite E, map_map. cbn [fst snd].
    assert (G : forall l, (forall i, In i l -> i < m * p) ->
      Forall2 (fun M N : nat -> nat -> T C => forall i j, i < b -> j < b -> M i j = N i j)
       (map (fun i => mget C (nth (index_of a s d (a + s * Z.of_nat (nth i ns O))) (nth (i mod p) (params C b k) []) [])) l)
       (map (fun i => tensor C k (i mod p) (nth i ns O)) l)).
    { induction l as [|i l IH]; intros H; cbn [map]; constructor.
      - intros r c Hr Hc. assert (Hi : i < m * p) by (apply H; now left).
        assert (Hn : nth i ns O < d) by (rewrite Forall_forall in Fn; apply Fn, nth_In; lia).
        rewrite index_evenly by assumption. apply (params_entry b k p d); try assumption.
        apply Nat.mod_upper_bound. lia.
      - apply IH. intros j Hj. apply H. now right. }
    apply G. intros i Hi. apply in_seq in Hi. lia.
  Qed.

  Lemma mps_formula a s d L sy b k p ns : (0 < s)%Z -> 2 <= d -> period L sy = Ok p -> kernel_shape C p d k ->
    length ns = L -> Forall (fun n => n < d) ns ->
    mps C (evenly a s d) L sy b k (map (fun n => (a + s * Z.of_nat n)%Z) ns)
    = Ok (mtrace C b (map (fun i => tensor C k (i mod p) (nth i ns O)) (seq O L))).
  Proof.
    intros Hs Hd P Sh Ln Fn. destruct (period_ok _ _ _ P) as [Hp HL].
    rewrite mps_eq, spacing_evenly by exact Hd. cbn [bind]. rewrite P. cbn [bind].
    rewrite tile_length, map_length, (params_length b k p d Sh), Ln, <- HL, Nat.eqb_refl. cbn [negb]. f_equal.
    rewrite bias_evenly by (lia || assumption).
    replace (length (evenly a s d)) with d by (unfold evenly; now rewrite map_length, seq_length).
    rewrite (amplitude_formula b k p d) by (try assumption; lia). rewrite <- HL. reflexivity.
  Qed.

  (** diagonal tensors *)
  Definition diag_of (f : nat -> T C) : nat -> nat -> T C := fun i j => f i * (if i =? j then r1 C else 0).
  Lemma mprod_diag b fs i j : i < b -> mprod C b (map diag_of fs) i j = cprod C (map (fun f => f i) fs) * (if i =? j then r1 C else 0).
  Proof.
    revert i. induction fs as [|f fs IH]; intros i Hi; cbn [map mprod cprod fold_right]; [destruct (i =? j); ring|].
    transitivity (fsum C b (fun k => (if i =? k then r1 C else 0) * (f i * mprod C b (map diag_of fs) k j))).
    - apply fsum_ext. intros k Hk. unfold diag_of at 1. ring.
    - rewrite (delta_l b (fun k => f i * mprod C b (map diag_of fs) k j) i Hi). rewrite IH by exact Hi.
      change (fold_right (rmul C) (r1 C) (map (fun f => f i) fs)) with (cprod C (map (fun f => f i) fs)). ring.
  Qed.
  Lemma mtrace_diag b fs : mtrace C b (map diag_of fs) = fsum C b (fun i => cprod C (map (fun f => f i) fs)).
  Proof.
    unfold mtrace. apply fsum_ext. intros i Hi. rewrite mprod_diag by exact Hi. rewrite Nat.eqb_refl. ring.
  Qed.

  Lemma mps_diag a s d L sy b k p ns : (0 < s)%Z -> 2 <= d -> period L sy = Ok p -> kernel_shape C p d (KDiag k) ->
    length ns = L -> Forall (fun n => n < d) ns ->
    mps C (evenly a s d) L sy b (KDiag k) (map (fun n => (a + s * Z.of_nat n)%Z) ns)
    = Ok (fsum C b (fun e => cprod C (map (fun i => nth e (nth (nth i ns O) (nth (i mod p) k []) []) 0 + r1 C) (seq O L)))).
  Proof.
    intros. rewrite (mps_formula a s d L sy b (KDiag k) p ns) by assumption. f_equal.
    pose (fs := map (fun i e => nth e (nth (nth i ns O) (nth (i mod p) k []) []) 0 + r1 C) (seq O L)).
    transitivity (mtrace C b (map diag_of fs)).
    - subst fs. rewrite map_map. reflexivity.
    - rewrite mtrace_diag. apply fsum_ext. intros e He. subst fs. now rewrite map_map.
  Qed.

  Lemma cprod_perm l l' : Permutation l l' -> cprod C l = cprod C l'.
  Proof.
    induction 1; cbn; [reflexivity| |ring|congruence].
    change (x * cprod C l = x * cprod C l'). congruence.
  Qed.

  Lemma mps_diag_permutation a s d L b k ns ns' : (0 < s)%Z -> 2 <= d -> kernel_shape C 1 d (KDiag k) ->
    length ns = L -> Forall (fun n => n < d) ns -> Permutation ns ns' ->
    mps C (evenly a s d) L (Some 1%Z) b (KDiag k) (map (fun n => (a + s * Z.of_nat n)%Z) ns')
    = mps C (evenly a s d) L (Some 1%Z) b (KDiag k) (map (fun n => (a + s * Z.of_nat n)%Z) ns).
  Proof.
    intros Hs Hd Sh Ln Fn Pm.
    assert (P : period L (Some 1%Z) = Ok 1%nat) by (unfold period; rewrite Z.mod_1_r; reflexivity).
    assert (Ln' : length ns' = L) by (rewrite <- (Permutation_length Pm); exact Ln).
    assert (Fn' : Forall (fun n => n < d) ns') by (eapply Permutation_Forall; eauto).
    rewrite (mps_diag a s d L _ b k 1 ns') by assumption.
    rewrite (mps_diag a s d L _ b k 1 ns) by assumption. f_equal. apply fsum_ext. intros e He.
    assert (G : forall l, length l = L ->
      map (fun i => nth e (nth (nth i l O) (nth (i mod 1) k []) []) 0 + r1 C) (seq O L)
      = map (fun n => nth e (nth n (nth O k []) []) 0 + r1 C) l).
    { intros l Ll. apply nth_ext with 0 0; [now rewrite !map_length, seq_length|].
      rewrite map_length, seq_length. intros i Hi. rewrite nth_map_seq' by exact Hi.
      rewrite (nth_indep (map _ l) 0 ((fun n => nth e (nth n (nth O k []) []) 0 + r1 C) O)) by (rewrite map_length; lia).
      rewrite (map_nth (fun n => nth e (nth n (nth O k []) []) 0 + r1 C)). rewrite Nat.add_0_l, Nat.mod_1_r. reflexivity. }
    rewrite (G ns') by exact Ln'. rewrite (G ns) by exact Ln.
    apply cprod_perm, Permutation_map, Permutation_sym, Pm.
  Qed.
End WithRing.
