From Coq Require Import List Arith ZArith Reals Lia.
From Verif Require Import Base Rings ARNN_Model ToArray_Model ToArray_Proofs Estim_Model Estim_Spec Estim_Proofs
  LocVal_Model LocVal_Spec.
Import ListNotations.
Open Scope nat_scope.

Lemma slice_map {A B} (f : A -> B) lo hi l : slice lo hi (map f l) = map f (slice lo hi l).
Proof. unfold slice. rewrite skipn_map. apply firstn_map. Qed.
Lemma combine_map {A B C} (f : A -> B) (g : A -> C) l : combine (map f l) (map g l) = map (fun a => (f a, g a)) l.
Proof. induction l; cbn; congruence. Qed.
Lemma running_length low ns : length (running low ns) = length ns.
Proof. revert low. induction ns; cbn; auto. Qed.

Lemma slice_mid {A} (pre c post : list A) : slice (length pre) (length pre + length c) (pre ++ c ++ post) = c.
Proof.
  unfold slice. rewrite skipn_app, skipn_all, Nat.sub_diag. cbn [skipn app].
  replace (length pre + length c - length pre) with (length c + 0) by lia.
  rewrite firstn_app_2. cbn. apply app_nil_r.
Qed.

Lemma over_ext {B} (f g : nat -> nat -> nat -> B) i low ss :
  (forall i lo hi, f i lo hi = g i lo hi) -> over_sections f i low ss = over_sections g i low ss.
Proof. intros H. revert i low. induction ss; intros; cbn; [reflexivity|]. rewrite H, IHss. reflexivity. Qed.

Lemma over_flat {X A B} (conn : X -> list A) (h : nat -> list A -> B) v :
  forall (pre : list A) i,
  over_sections (fun i lo hi => h i (slice lo hi (pre ++ flat_map conn v))) i (length pre)
    (running (length pre) (map (fun s => length (conn s)) v))
  = map (fun si => h (fst si) (conn (snd si))) (combine (seq i (length v)) v).
Proof.
  induction v as [|s v IH]; intros pre i; [reflexivity|].
  cbn [flat_map map running over_sections length seq combine fst snd].
  rewrite slice_mid. f_equal.
  specialize (IH (pre ++ conn s) (S i)). rewrite app_length, <- app_assoc in IH. exact IH.
Qed.

Lemma over_flat0 {X A B} (conn : X -> list A) (h : nat -> list A -> B) (body : nat -> nat -> nat -> B) v :
  (forall i lo hi, body i lo hi = h i (slice lo hi (flat_map conn v))) ->
  over_sections body 0 0 (running 0 (map (fun s => length (conn s)) v))
  = map (fun si => h (fst si) (conn (snd si))) (combine (seq 0 (length v)) v).
Proof. intros H. rewrite (over_ext _ _ _ _ _ H). exact (over_flat conn h v [] 0). Qed.

Lemma numbered {B C} (f : nat -> C) (F : C -> nat -> B) (d : C) (v : list nat) :
  map (fun si => F (nth (fst si) (map f v) d) (snd si)) (combine (seq 0 (length v)) v) = map (fun s => F (f s) s) v.
Proof.
  assert (G : forall v pre, map (fun si => F (nth (fst si) (map f (pre ++ v)) d) (snd si))
     (combine (seq (length pre) (length v)) v) = map (fun s => F (f s) s) v).
  { clear v. induction v as [|s v IH]; intros pre; [reflexivity|]. cbn [length seq combine map fst snd]. f_equal.
    - rewrite map_app, app_nth2; rewrite map_length; [|lia]. rewrite Nat.sub_diag. reflexivity.
    - specialize (IH (pre ++ [s])). rewrite app_length, <- app_assoc in IH. cbn [length app] in IH.
      rewrite Nat.add_1_r in IH. exact IH. }
  exact (G v []).
Qed.

Lemma weights_flat log_vals (f : nat * cpx -> cpx) (all : list (nat * cpx)) i lo hi :
  weights log_vals (map f all) (map snd all) i lo hi
  = map (fun c => rmul cC (snd c) (cexp (rsub cC (f c) (nth i log_vals (r0 cC))))) (slice lo hi all).
Proof. unfold weights. rewrite !slice_map, combine_map, map_map. reflexivity. Qed.

Lemma enough {B} (f : nat -> B) v : forall n, n = length v -> long_enough (map f v) n = Ok tt.
Proof. intros n ->. unfold long_enough. rewrite map_length, Nat.ltb_irrefl. reflexivity. Qed.

Lemma flat_length conn (v : list nat) : length (running 0 (map (fun s => length (conn s : list (nat * cpx))) v)) = length v.
Proof. rewrite running_length. apply map_length. Qed.

Lemma impl_is conn log_val v out :
  local_values_impl conn log_val v (map log_val v) out = write_out out (map (fun s => local_value log_val s (conn s)) v).
Proof.
  unfold local_values_impl, conn_flattened, local_values_kernel.
  rewrite enough by apply flat_length. cbn [bind]. f_equal. rewrite map_map.
  rewrite (over_flat0 conn (fun i c => lsum cC (map (fun c => rmul cC (snd c)
      (cexp (rsub cC (log_val (fst c)) (nth i (map log_val v) (r0 cC))))) c))).
  2:{ intros. cbv beta. rewrite (weights_flat _ (fun c => log_val (fst c))). reflexivity. }
  cbv beta.
  rewrite (numbered log_val (fun l s => lsum cC (map (fun c => rmul cC (snd c) (cexp (rsub cC (log_val (fst c)) l))) (conn s)))).
  reflexivity.
Qed.

Lemma unpack_is conn v : op_op_unpack v (running 0 (map (fun s => length (conn s : list (nat * cpx))) v))
  = flat_map (fun s => repeat s (length (conn s))) v.
Proof.
  unfold op_op_unpack.
  assert (G : forall v pre low, over_sections (fun i lo hi => repeat (nth i (pre ++ v) 0) (hi - lo)) (length pre) low
     (running low (map (fun s => length (conn s : list (nat * cpx))) v)) = map (fun s => repeat s (length (conn s))) v).
  { clear v. induction v as [|s v IH]; intros pre low; [reflexivity|]. cbn [map running over_sections]. f_equal.
    - rewrite app_nth2, Nat.sub_diag by lia. cbn [nth]. f_equal. lia.
    - specialize (IH (pre ++ [s]) (low + length (conn s))). rewrite app_length, <- app_assoc in IH. cbn [length app] in IH.
      rewrite Nat.add_1_r in IH. exact IH. }
  specialize (G v [] 0). cbn [app length] in G. rewrite flat_map_concat_map. f_equal. exact G.
Qed.

Lemma combine_app {A B} (a a' : list A) (b b' : list B) : length a = length b ->
  combine (a ++ a') (b ++ b') = combine a b ++ combine a' b'.
Proof. revert b. induction a; destruct b; cbn; intros; try discriminate; [reflexivity|]. f_equal. auto. Qed.
Lemma combine_repeat {A B} (l : list A) (b : B) : combine l (repeat b (length l)) = map (fun a => (a, b)) l.
Proof. induction l; cbn; congruence. Qed.

Lemma pairs_is (conn : nat -> list (nat * cpx)) v : combine (map fst (flat_map conn v)) (flat_map (fun s => repeat s (length (conn s : list (nat * cpx)))) v)
  = flat_map (fun s => map (fun c => (fst c, s)) (conn s)) v.
Proof.
  induction v as [|s v IH]; [reflexivity|]. cbn [flat_map]. rewrite map_app, combine_app.
  - rewrite IH. f_equal. rewrite <- (map_length fst (conn s)) at 1. rewrite combine_repeat, map_map. reflexivity.
  - rewrite map_length, repeat_length. reflexivity.
Qed.

Lemma flat_tag {A B} (conn : nat -> list A) (f : A -> nat -> B) v :
  flat_map (fun s => map (fun c => f c s) (conn s)) v
  = map (fun cs => f (fst cs) (snd cs)) (flat_map (fun s => map (fun c => (c, s)) (conn s)) v).
Proof.
  induction v as [|s v IH]; [reflexivity|]. cbn [flat_map]. rewrite map_app, IH, map_map. reflexivity.
Qed.
Lemma flat_untag {A B} (conn : nat -> list A) (f : A -> B) v :
  map f (flat_map conn v) = map (fun cs => f (fst cs)) (flat_map (fun s => map (fun c => (c, s)) (conn s)) v).
Proof.
  induction v as [|s v IH]; [reflexivity|]. cbn [flat_map]. rewrite !map_app, IH, map_map. reflexivity.
Qed.

Lemma op_op_is conn log_val2 v out : v <> [] ->
  local_values_op_op_impl conn log_val2 v (map (fun s => log_val2 s s) v) out
  = write_out out (map (fun s => local_value (fun t => log_val2 t s) s (conn s)) v).
Proof.
  intros Hv. unfold local_values_op_op_impl, conn_flattened.
  destruct (running 0 (map (fun s => length (conn s)) v)) as [|s0 r0'] eqn:ER.
  { exfalso. apply (f_equal (@length nat)) in ER. rewrite running_length, map_length in ER. destruct v; [congruence|discriminate]. }
  rewrite <- ER. clear ER s0 r0'. rewrite unpack_is, pairs_is.
  unfold local_values_kernel. rewrite enough by apply flat_length. cbn [bind]. f_equal.
  set (tag := fun s => map (fun c => (c, s)) (conn s)).
  rewrite (flat_tag conn (fun c s => (fst c, s))), (flat_untag conn snd), map_map. fold tag. cbn [fst snd].
  replace (map (fun s => length (conn s)) v) with (map (fun s => length (tag s)) v)
    by (apply map_ext; intros; unfold tag; apply map_length).
  rewrite (over_flat0 tag (fun i c => lsum cC (map (fun cs : nat * cpx * nat => rmul cC (snd (fst cs))
      (cexp (rsub cC (log_val2 (fst (fst cs)) (snd cs)) (nth i (map (fun s => log_val2 s s) v) (r0 cC))))) c))).
  2:{ intros. cbv beta. unfold weights. rewrite !slice_map, combine_map, map_map. reflexivity. }
  cbv beta.
  rewrite (numbered (fun s => log_val2 s s) (fun l s => lsum cC (map (fun cs : nat * cpx * nat => rmul cC (snd (fst cs))
      (cexp (rsub cC (log_val2 (fst (fst cs)) (snd cs)) l))) (tag s)))).
  apply map_ext. intros s. unfold tag. rewrite map_map. reflexivity.
Qed.

(** ** Batches *)
Lemma assign_mid {B} (pre mid post vals : list B) : length mid = length vals ->
  assign (pre ++ mid ++ post) (length pre) vals = pre ++ vals ++ post.
Proof.
  intros E. unfold assign. f_equal.
  - rewrite firstn_app, firstn_all, Nat.sub_diag. cbn [firstn]. apply app_nil_r.
  - f_equal. rewrite app_assoc, skipn_app, skipn_all2 by (rewrite app_length; lia).
    rewrite app_length, <- E, Nat.sub_diag. reflexivity.
Qed.

Section Batches.
  Variables (B : Type) (f : nat -> B) (xs : list nat) (b : nat).
  Hypothesis Hb : 0 < b.
  Let n := length xs.
  Let step (acc : list B) (s : nat) : list B := assign acc s (map f (slice s (Nat.min (s + b) n) xs)).

  Lemma step_is rest s : s < n -> length rest = n - s ->
    step (map f (firstn s xs) ++ rest) s = map f (firstn (Nat.min (s + b) n) xs) ++ skipn (Nat.min (s + b) n - s) rest.
  Proof.
    intros Hs HL. unfold step. set (e := Nat.min (s + b) n).
    assert (He : s <= e <= n) by (unfold e; lia).
    rewrite <- (firstn_skipn (e - s) rest) at 1.
    assert (LP : length (map f (firstn s xs)) = s) by (rewrite map_length, firstn_length; fold n; lia).
    pose proof (assign_mid (map f (firstn s xs)) (firstn (e - s) rest) (skipn (e - s) rest) (map f (slice s e xs))) as AM.
    rewrite LP in AM. rewrite AM.
    - rewrite app_assoc. f_equal. rewrite <- map_app. f_equal. unfold slice.
      rewrite <- (firstn_skipn s (firstn e xs)). rewrite firstn_firstn, Nat.min_l by lia. f_equal.
      rewrite skipn_firstn_comm. reflexivity.
    - unfold slice. rewrite map_length, !firstn_length, skipn_length. fold n. lia.
  Qed.

  Lemma batches fuel : forall s rest, s <= n -> n - s <= fuel -> length rest = n - s ->
    fold_left step (range_from fuel s n b) (map f (firstn s xs) ++ rest) = map f xs.
  Proof.
    induction fuel as [|fuel IH]; intros s rest Hs HF HL.
    - cbn. assert (s = n) by lia. subst s. destruct rest; [|cbn in HL; lia]. rewrite app_nil_r, firstn_all2 by (fold n; lia). reflexivity.
    - cbn [range_from]. destruct (s <? n) eqn:E.
      + apply Nat.ltb_lt in E. cbn [fold_left]. rewrite step_is by assumption.
        destruct (Nat.le_gt_cases (s + b) n) as [H|H].
        * rewrite Nat.min_l by lia. apply IH; try lia. rewrite skipn_length. lia.
        * rewrite Nat.min_r by lia. rewrite skipn_all2 by lia. rewrite app_nil_r, firstn_all2 by (fold n; lia).
          replace (range_from fuel (s + b) n b) with (@nil nat); [reflexivity|].
          destruct fuel; cbn [range_from]; [reflexivity|]. destruct (s + b <? n) eqn:E2; [apply Nat.ltb_lt in E2; lia|reflexivity].
      + apply Nat.ltb_ge in E. cbn. assert (s = n) by lia. subst s. destruct rest; [|cbn in HL; lia].
        rewrite app_nil_r, firstn_all2 by (fold n; lia). reflexivity.
  Qed.
End Batches.

Lemma batched_is junk der_log v_primes bs : (0 < bs)%Z -> der_log_batched junk der_log v_primes bs = Ok (map der_log v_primes).
Proof.
  intros H. unfold der_log_batched.
  destruct (bs =? 0)%Z eqn:E0; [apply Z.eqb_eq in E0; lia|]. destruct (bs <? 0)%Z eqn:E1; [apply Z.ltb_lt in E1; lia|].
  f_equal. apply (batches _ der_log v_primes (Z.to_nat bs) ltac:(lia) (length v_primes) 0 (map junk (seq 0 (length v_primes)))); try lia.
  rewrite map_length, seq_length. lia.
Qed.

(** ** Derivatives *)
Definition der_value (log_val : nat -> cpx) (g : nat -> cpx) (centre : bool) (s : nat) (conn : list (nat * cpx)) : cpx :=
  lsum cC (map (fun c => rmul cC (rmul cC (snd c) (cexp (rsub cC (log_val (fst c)) (log_val s))))
     (if centre then rsub cC (g (fst c)) (g s) else g (fst c))) conn).

Lemma centered_is junk size n_par conn log_val der_log v out bs : ndim v = 2 -> cols v = size -> (0 < bs)%Z ->
  der_local_values junk size n_par conn log_val der_log v None None out FTrue bs
  = write_out out (map (fun s => map (fun p => der_value log_val (fun t => col p (der_log t)) true s (conn s)) (seq 0 n_par)) (rows v)).
Proof.
  intros H2 Hc Hb. unfold der_local_values. rewrite H2, Hc, !Nat.eqb_refl. cbn [negb is_true]. unfold conn_flattened.
  rewrite batched_is by exact Hb. cbn [bind]. unfold der_kernel.
  rewrite !enough by apply flat_length. cbn [bind]. f_equal. rewrite !map_map.
  rewrite (over_flat0 conn (fun i c => map (fun p => lsum cC (map (fun c => rmul cC (rmul cC (snd c)
      (cexp (rsub cC (log_val (fst c)) (nth i (map log_val (rows v)) (r0 cC)))))
      (rsub cC (col p (der_log (fst c))) (col p (nth i (map der_log (rows v)) [])))) c)) (seq 0 n_par))).
  2:{ intros. cbv beta. rewrite (weights_flat _ (fun c => log_val (fst c))). rewrite slice_map, combine_map.
      apply map_ext. intros p. rewrite map_map. reflexivity. }
  cbv beta.
  set (G := fun (s' s : nat) => map (fun p => lsum cC (map (fun c => rmul cC (rmul cC (snd c)
      (cexp (rsub cC (log_val (fst c)) (log_val s'))))
      (rsub cC (col p (der_log (fst c))) (col p (der_log s')))) (conn s))) (seq 0 n_par)).
  transitivity (map (fun si => (fun (l : cpx * row) s => map (fun p => lsum cC (map (fun c => rmul cC (rmul cC (snd c)
      (cexp (rsub cC (log_val (fst c)) (fst l))))
      (rsub cC (col p (der_log (fst c))) (col p (snd l)))) (conn s))) (seq 0 n_par))
      (nth (fst si) (map (fun s => (log_val s, der_log s)) (rows v)) (r0 cC, [])) (snd si)) (combine (seq 0 (length (rows v))) (rows v))).
  - apply map_ext. intros [i s]. cbv beta. cbn [fst snd].
    assert (N : forall l, (nth i (map log_val l) (r0 cC), nth i (map der_log l) []) = nth i (map (fun s => (log_val s, der_log s)) l) (r0 cC, [])).
    { intros l. revert i. induction l; destruct i; cbn; auto. }
    rewrite <- N. reflexivity.
  - rewrite (numbered (fun s => (log_val s, der_log s)) (fun (l : cpx * row) s => map (fun p => lsum cC (map (fun c => rmul cC (rmul cC (snd c)
      (cexp (rsub cC (log_val (fst c)) (fst l))))
      (rsub cC (col p (der_log (fst c))) (col p (snd l)))) (conn s))) (seq 0 n_par))). reflexivity.
Qed.

Lemma notcentered_is junk size n_par conn log_val der_log v d out f bs : ndim v = 2 -> cols v = size -> (0 < bs)%Z -> f <> FTrue ->
  der_local_values junk size n_par conn log_val der_log v None d out f bs
  = write_out out (map (fun s => map (fun p => der_value log_val (fun t => col p (der_log t)) false s (conn s)) (seq 0 n_par)) (rows v)).
Proof.
  intros H2 Hc Hb Hf. unfold der_local_values. rewrite H2, Hc, !Nat.eqb_refl. cbn [negb].
  assert (is_true f = false) as -> by (destruct f; [congruence|reflexivity|reflexivity]). unfold conn_flattened.
  rewrite batched_is by exact Hb. cbn [bind]. unfold der_notcentered_kernel.
  rewrite !enough by apply flat_length. cbn [bind]. f_equal. rewrite !map_map.
  rewrite (over_flat0 conn (fun i c => map (fun p => lsum cC (map (fun c => rmul cC (rmul cC (snd c)
      (cexp (rsub cC (log_val (fst c)) (nth i (map log_val (rows v)) (r0 cC)))))
      (col p (der_log (fst c)))) c)) (seq 0 n_par))).
  2:{ intros. cbv beta. rewrite (weights_flat _ (fun c => log_val (fst c))). rewrite slice_map, combine_map.
      apply map_ext. intros p. rewrite map_map. reflexivity. }
  cbv beta.
  rewrite (numbered log_val (fun l s => map (fun p => lsum cC (map (fun c => rmul cC (rmul cC (snd c)
      (cexp (rsub cC (log_val (fst c)) l))) (col p (der_log (fst c)))) (conn s))) (seq 0 n_par))).
  reflexivity.
Qed.

Lemma cderiv_ext f g x l : (forall t, f t = g t) -> cderiv f x l -> cderiv g x l.
Proof. intros E [A B]. split; (eapply dl_ext; [|eassumption]); intros; cbn; rewrite E; reflexivity. Qed.
Lemma cderiv_lsum {A} (f : A -> R -> cpx) (l : A -> cpx) x cs : (forall a, cderiv (f a) x (l a)) ->
  cderiv (fun t => lsum cC (map (fun a => f a t) cs)) x (lsum cC (map l cs)).
Proof.
  intros H. induction cs as [|a cs IH]; cbn [map lsum]; [apply cderiv_const|].
  apply (cderiv_add (f a) (fun t => lsum cC (map (fun a => f a t) cs))); auto.
Qed.

Lemma local_deriv (log_psi : R -> nat -> cpx) x g s conn : (forall t, cderiv (fun u => log_psi u t) x (g t)) ->
  cderiv (fun u => local_value (log_psi u) s conn) x (der_value (log_psi x) g true s conn).
Proof.
  intros H. unfold local_value, der_value.
  apply (cderiv_lsum (fun c u => rmul cC (snd c) (cexp (rsub cC (log_psi u (fst c)) (log_psi u s))))
    (fun c => rmul cC (rmul cC (snd c) (cexp (rsub cC (log_psi x (fst c)) (log_psi x s)))) (rsub cC (g (fst c)) (g s)))).
  intros c.
  assert (D : cderiv (fun u => rsub cC (log_psi u (fst c)) (log_psi u s)) x (rsub cC (g (fst c)) (g s))).
  { destruct (H (fst c)) as [A1 A2], (H s) as [B1 B2]. split; cbn; apply derivable_pt_lim_minus; assumption. }
  apply (cderiv_eq _ _ (radd cC (rmul cC (r0 cC) (cexp (rsub cC (log_psi x (fst c)) (log_psi x s))))
     (rmul cC (snd c) (rmul cC (rsub cC (g (fst c)) (g s)) (cexp (rsub cC (log_psi x (fst c)) (log_psi x s))))))).
  - apply (cderiv_mul (fun _ => snd c) (fun u => cexp (rsub cC (log_psi u (fst c)) (log_psi u s)))).
    + apply cderiv_const.
    + apply cderiv_exp. exact D.
  - ring.
Qed.

(** ** Final statements *)
Lemma Forall2_map_r {A B} (P : A -> B -> Prop) (f : A -> B) l : (forall a, In a l -> P a (f a)) -> Forall2 P l (map f l).
Proof. induction l; cbn; intros H; constructor; auto. Qed.

Lemma pure_main N O conn log_val liouvillian size v : describes N O conn -> proper size N v ->
  exists z, local_values liouvillian size conn (Pure log_val) v None None = Ok z /\
    Forall2 (is_local_value N O (psi_of log_val)) (rows v) z.
Proof.
  intros D (H2 & Hc & HF). eexists. split.
  - unfold local_values. rewrite H2, Hc, !Nat.eqb_refl. cbn [negb]. rewrite impl_is. reflexivity.
  - apply Forall2_map_r. intros s Hs. rewrite Forall_forall in HF. exact (local_value_main N O conn log_val s D (HF s Hs)).
Qed.
Lemma liouville_main N O conn log_val log_val2 size v : describes N O conn -> proper size N v ->
  exists z, local_values true size conn (Density log_val log_val2) v None None = Ok z /\
    Forall2 (is_local_value N O (psi_of log_val)) (rows v) z.
Proof.
  intros D (H2 & Hc & HF). eexists. split.
  - unfold local_values. rewrite H2, Hc, !Nat.eqb_refl. cbn [negb]. rewrite impl_is. reflexivity.
  - apply Forall2_map_r. intros s Hs. rewrite Forall_forall in HF. exact (local_value_main N O conn log_val s D (HF s Hs)).
Qed.
Lemma density_main N O conn log_val log_rho size v : describes N O conn -> proper size N v -> rows v <> [] ->
  exists z, local_values false size conn (Density log_val log_rho) v None None = Ok z /\
    Forall2 (fun s z => rmul cC z (rho_of log_rho s s) = apply_op N O (fun t => rho_of log_rho t s) s) (rows v) z.
Proof.
  intros D (H2 & Hc & HF) Hne. eexists. split.
  - unfold local_values. rewrite H2, Hc, !Nat.eqb_refl. cbn [negb]. rewrite op_op_is by exact Hne. reflexivity.
  - apply Forall2_map_r. intros s Hs. rewrite Forall_forall in HF.
    exact (local_value_main N O conn (fun t => log_rho t s) s D (HF s Hs)).
Qed.
Lemma density_empty conn log_val log_rho size v l out : ndim v = 2 -> cols v = size -> rows v = [] ->
  local_values false size conn (Density log_val log_rho) v l out = Err IndexError.
Proof. intros H2 Hc E. unfold local_values. rewrite H2, Hc, E, !Nat.eqb_refl. reflexivity. Qed.

Lemma shapes_main liouvillian size conn m v l out : ndim v <> 2 \/ cols v <> size ->
  local_values liouvillian size conn m v l out = Err (if ndim v =? 2 then AssertionError else RuntimeError).
Proof.
  intros H. unfold local_values. destruct (ndim v =? 2) eqn:E; cbn [negb]; [|reflexivity].
  apply Nat.eqb_eq in E. assert (C : cols v <> size) by tauto. apply Nat.eqb_neq in C.
  rewrite C. destruct m; [reflexivity|]. destruct liouvillian; reflexivity.
Qed.
Lemma der_shapes_main junk size n_par conn log_val der_log v l d out f bs : ndim v <> 2 \/ cols v <> size ->
  der_local_values junk size n_par conn log_val der_log v l d out f bs = Err (if ndim v =? 2 then AssertionError else RuntimeError).
Proof.
  intros H. unfold der_local_values. destruct (ndim v =? 2) eqn:E; cbn [negb]; [|reflexivity].
  apply Nat.eqb_eq in E. assert (C : cols v <> size) by tauto. apply Nat.eqb_neq in C. rewrite C. reflexivity.
Qed.

Lemma given_pure liouvillian size conn log_val v out :
  local_values liouvillian size conn (Pure log_val) v (Some (map log_val (rows v))) out
  = local_values liouvillian size conn (Pure log_val) v None out.
Proof. reflexivity. Qed.
Lemma written {B} (o : list B) z : length o = length z -> write_out (Some o) z = Ok z.
Proof.
  intros E. unfold write_out. rewrite E, Nat.ltb_irrefl, skipn_all2, app_nil_r by lia. reflexivity.
Qed.
Lemma out_pure liouvillian size conn log_val v o z :
  local_values liouvillian size conn (Pure log_val) v None None = Ok z -> length o = length (rows v) ->
  local_values liouvillian size conn (Pure log_val) v None (Some o) = Ok z.
Proof.
  unfold local_values. destruct (negb (ndim v =? 2)); [discriminate|]. destruct (cols v =? size); [|discriminate].
  rewrite !impl_is. intros E HL. unfold write_out at 1 in E. injection E as <-. apply written. rewrite map_length. exact HL.
Qed.

Lemma length_map_value {B} (f : nat -> B) v z : Ok (map f v) = Ok z -> length z = length v.
Proof. intros E. injection E as <-. apply map_length. Qed.

Lemma der_main junk size n_par N O conn (log_psi : R -> nat -> cpx) x der_log v bs :
  describes N O conn -> proper size N v -> (0 < bs)%Z ->
  exists D, der_local_values junk size n_par conn (log_psi x) der_log v None None None FTrue bs = Ok D /\
    length D = length (rows v) /\
    (forall i p, i < length (rows v) -> p < n_par -> derivative_of log_psi x der_log p ->
     exists E : R -> cpx, (forall t, is_local_value N O (psi_of (log_psi t)) (nth i (rows v) 0) (E t)) /\
       cderiv E x (nth p (nth i D []) (r0 cC))).
Proof.
  intros DE (H2 & Hc & HF) Hb. eexists. split; [rewrite centered_is by assumption; reflexivity|].
  split; [apply map_length|]. intros i p Hi Hp HD.
  set (s := nth i (rows v) 0). assert (Hs : s < N) by (rewrite Forall_forall in HF; apply HF; apply nth_In; exact Hi).
  exists (fun t => local_value (log_psi t) s (conn s)). split.
  - intros t. exact (local_value_main N O conn (log_psi t) s DE Hs).
  - set (F := fun s => map (fun p => der_value (log_psi x) (fun t => col p (der_log t)) true s (conn s)) (seq 0 n_par)).
    rewrite (nth_indep _ [] (F 0)) by (rewrite map_length; exact Hi). rewrite map_nth. fold s. unfold F.
    set (G := fun p => der_value (log_psi x) (fun t => col p (der_log t)) true s (conn s)).
    rewrite (nth_indep _ (r0 cC) (G 0)) by (rewrite map_length, seq_length; exact Hp). rewrite map_nth, seq_nth by exact Hp.
    unfold G. apply local_deriv. exact HD.
Qed.

Lemma lsum_mul {A} (f : A -> cpx) k l : rmul cC (lsum cC (map f l)) k = lsum cC (map (fun a => rmul cC (f a) k) l).
Proof. induction l as [|a l IH]; cbn [map lsum]; [ring|]. rewrite <- IH. ring. Qed.

Lemma centre_diff log_val g s conn : der_value log_val g false s conn
  = radd cC (der_value log_val g true s conn) (rmul cC (local_value log_val s conn) (g s)).
Proof.
  unfold der_value, local_value. rewrite lsum_mul.
  induction conn as [|c l IH]; cbn [map lsum]; [ring|]. rewrite IH. ring.
Qed.

Lemma off_main junk size n_par N O conn (log_psi : R -> nat -> cpx) x der_log v f bs :
  describes N O conn -> proper size N v -> (0 < bs)%Z -> f <> FTrue ->
  exists D, der_local_values junk size n_par conn (log_psi x) der_log v None None None f bs = Ok D /\
    length D = length (rows v) /\
    (forall i p, i < length (rows v) -> p < n_par -> derivative_of log_psi x der_log p ->
     cderiv (fun t => apply_op N O (psi_of (log_psi t)) (nth i (rows v) 0)) x
       (rmul cC (nth p (nth i D []) (r0 cC)) (psi_of (log_psi x) (nth i (rows v) 0)))).
Proof.
  intros DE (H2 & Hc & HF) Hb Hf. eexists. split; [rewrite notcentered_is by assumption; reflexivity|].
  split; [apply map_length|]. intros i p Hi Hp HD.
  set (s := nth i (rows v) 0). assert (Hs : s < N) by (rewrite Forall_forall in HF; apply HF; apply nth_In; exact Hi).
  set (F := fun s => map (fun p => der_value (log_psi x) (fun t => col p (der_log t)) false s (conn s)) (seq 0 n_par)).
  rewrite (nth_indep _ [] (F 0)) by (rewrite map_length; exact Hi). rewrite map_nth. fold s. unfold F.
  set (G := fun p => der_value (log_psi x) (fun t => col p (der_log t)) false s (conn s)).
  rewrite (nth_indep _ (r0 cC) (G 0)) by (rewrite map_length, seq_length; exact Hp). rewrite map_nth, seq_nth by exact Hp.
  unfold G. rewrite Nat.add_0_l, centre_diff.
  apply (cderiv_ext (fun t => rmul cC (local_value (log_psi t) s (conn s)) (psi_of (log_psi t) s))).
  { intros t. exact (local_value_main N O conn (log_psi t) s DE Hs). }
  apply (cderiv_eq _ _ (radd cC (rmul cC (der_value (log_psi x) (fun t => col p (der_log t)) true s (conn s)) (psi_of (log_psi x) s))
     (rmul cC (local_value (log_psi x) s (conn s)) (rmul cC (col p (der_log s)) (cexp (log_psi x s)))))).
  - apply (cderiv_mul (fun t => local_value (log_psi t) s (conn s)) (fun t => psi_of (log_psi t) s)).
    + apply local_deriv. exact HD.
    + apply (cderiv_ext (fun t => cexp (log_psi t s))); [intros; symmetry; apply psi_is|].
      apply cderiv_exp. apply HD.
  - rewrite psi_is. ring.
Qed.

Lemma batch_main junk junk' size n_par conn log_val der_log v l d out f bs bs' : (0 < bs)%Z -> (0 < bs')%Z ->
  der_local_values junk size n_par conn log_val der_log v l d out f bs
  = der_local_values junk' size n_par conn log_val der_log v l d out f bs'.
Proof.
  intros H H'. unfold der_local_values. destruct (negb (ndim v =? 2)); [reflexivity|].
  destruct (negb (cols v =? size)); [reflexivity|]. unfold conn_flattened.
  rewrite !batched_is by assumption. destruct (is_true f); reflexivity.
Qed.
Lemma batch_zero junk size n_par conn log_val der_log v l d out f : ndim v = 2 -> cols v = size ->
  der_local_values junk size n_par conn log_val der_log v l d out f 0 = Err ValueError.
Proof. intros H2 Hc. unfold der_local_values. rewrite H2, Hc, !Nat.eqb_refl. cbn [negb]. unfold conn_flattened. destruct (is_true f); reflexivity. Qed.

(** witness: one state, O = 1, log psi_t = t *)
Definition one_conn (_ : nat) : list (nat * cpx) := [(0, (1, 0)%R)].
Definition one_O (_ _ : nat) : cpx := (1, 0)%R.
Definition one_batch : batch := Batch 2 1 [0].
Definition one_der (_ : nat) : row := [(1, 0)%R].
Lemma one_describes : describes 1 one_O one_conn.
Proof.
  intros s Hs. split; [repeat constructor|]. intros t Ht. assert (t = 0) as -> by lia.
  unfold one_conn. cbn [filter fst Nat.eqb map snd lsum]. unfold one_O. cpx; ring.
Qed.
Lemma one_proper : proper 1 1 one_batch.
Proof. repeat split. repeat constructor. Qed.
Lemma one_derivative x : derivative_of (fun t _ => (t, 0)%R) x one_der 0.
Proof. intros s. split; cbn; [apply derivable_pt_lim_id|apply derivable_pt_lim_const]. Qed.

Lemma one_exp : cexp (rsub cC (0, 0)%R (0, 0)%R) = r1 cC.
Proof.
  replace (rsub cC (0, 0)%R (0, 0)%R) with (r0 cC) by (cpx; ring).
  unfold cexp; cbn; rewrite exp_0, cos_0, sin_0; apply injective_projections; cbn; ring.
Qed.
Lemma one_negative junk : exists D, der_local_values junk 1 1 one_conn (fun _ => (0, 0)%R) one_der one_batch None None None FFalse (-1) = Ok D /\
  nth 0 (nth 0 D []) (r0 cC) = nth 0 (junk 0) (r0 cC).
Proof.
  exists [[lsum cC [rmul cC (rmul cC (1, 0)%R (cexp (rsub cC (0, 0)%R (0, 0)%R))) (nth 0 (junk 0) (r0 cC))]]].
  split; [reflexivity|]. cbn [nth lsum]. rewrite one_exp. change ((1, 0)%R : cpx) with (r1 cC). ring.
Qed.
Lemma negative_refuted : exists size n_par conn log_val der_log v f bs, ndim v = 2 /\ cols v = size /\
  forall z : cpx, exists junk D, der_local_values junk size n_par conn log_val der_log v None None None f bs = Ok D /\
    nth 0 (nth 0 D []) (r0 cC) = z.
Proof.
  exists 1, 1, one_conn, (fun _ => (0, 0)%R), one_der, one_batch, FFalse, (-1)%Z. split; [reflexivity|]. split; [reflexivity|].
  intros z. destruct (one_negative (fun _ => [z])) as (D & E & V). exists (fun _ => [z]), D. split; [exact E|exact V].
Qed.
Lemma truthy_refuted : exists size n_par conn log_val der_log v f, truth f = true /\ forall junk,
  der_local_values junk size n_par conn log_val der_log v None None None f 64
  <> der_local_values junk size n_par conn log_val der_log v None None None FTrue 64.
Proof.
  exists 1, 1, one_conn, (fun _ => (0, 0)%R), one_der, one_batch, (FOther true). split; [reflexivity|]. intros junk E.
  rewrite notcentered_is, centered_is in E by (reflexivity || lia || discriminate).
  unfold write_out in E.
  assert (A : der_value (fun _ => (0, 0)%R) (fun t => col 0 (one_der t)) false 0 (one_conn 0)
    = der_value (fun _ => (0, 0)%R) (fun t => col 0 (one_der t)) true 0 (one_conn 0)).
  { apply (f_equal (fun r => match r with Ok D => nth 0 (nth 0 D []) (r0 cC) | Err _ => r0 cC end)) in E. exact E. }
  unfold der_value, one_conn in A. cbn [map lsum fst snd] in A. rewrite one_exp in A.
  change (col 0 (one_der 0)) with (r1 cC) in A. change ((1, 0)%R : cpx) with (r1 cC) in A.
  assert (B : r1 cC = r0 cC).
  { transitivity (radd cC (rmul cC (rmul cC (r1 cC) (r1 cC)) (r1 cC)) (r0 cC)); [ring|]. rewrite A. ring. }
  apply (f_equal fst) in B. cbn in B. apply R1_neq_R0. exact B.
Qed.
