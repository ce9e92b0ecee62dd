From Coq Require Import List Arith Bool Reals Lra Lia.
From Verif Require Import Base Rings ARNN_Model ARNN_Proofs Estim_Model Estim_Proofs QGT_Model QGT_Spec QGT_Proofs Solve_Model Solve_Spec.
Import ListNotations.
Open Scope R_scope.

(** ** coordinates *)
Lemma in_real_leaves ls : forall off c, In c (concat (real_leaves off ls)) <->
  (off <= fst c < off + n_pars ls)%nat /\ (snd c = true -> flag ls (fst c - off) = true).
Proof.
  induction ls as [|[b n] ls IH]; intros off [k p]; cbn [real_leaves n_pars flag fst snd].
  - cbn. split; [tauto|lia].
  - rewrite concat_app, in_app_iff, IH. cbn [fst snd].
    assert (A : In (k, p) (concat (if b then [map (fun k => (k, false)) (seq off n); map (fun k => (k, true)) (seq off n)]
                         else [map (fun k => (k, false)) (seq off n)]))
       <-> (off <= k < off + n)%nat /\ (p = true -> b = true)).
    { assert (M : forall q, In (k, p) (map (fun k => (k, q)) (seq off n)) <-> p = q /\ (off <= k < off + n)%nat).
      { intros q. rewrite in_map_iff. split.
        - intros [j [E Hj]]. injection E as -> ->. apply in_seq in Hj. split; [reflexivity|lia].
        - intros [-> Hk]. exists k. split; [reflexivity|]. apply in_seq. lia. }
      destruct b; cbn [concat]; rewrite ?app_nil_r, ?in_app_iff, !M.
      - destruct p; split; intros H; repeat split; try tauto; destruct H as [[? ?]|[? ?]]; tauto.
      - split; [intros [-> H]; split; [exact H|discriminate]|intros [H1 H2]; destruct p; [discriminate (H2 eq_refl)|tauto]]. }
    rewrite A. destruct (Nat.ltb_spec (k - off) n) as [L|L].
    + split; [intros [[H1 H2]|[H1 H2]]; [split; [lia|exact H2]|lia]|].
      intros [H1 H2]. left. split; [lia|exact H2].
    + replace (k - off - n)%nat with (k - (off + n))%nat by lia. split.
      * intros [[H1 H2]|[H1 H2]]; [lia|split; [lia|exact H2]].
      * intros [H1 H2]. right. split; [lia|exact H2].
Qed.
Lemma in_leaves ls c : In c (concat (real_leaves 0 ls)) <-> is_coord ls c.
Proof.
  rewrite in_real_leaves. unfold is_coord. rewrite Nat.sub_0_r. split; intros [H1 H2]; split; try exact H2; lia.
Qed.
Lemma in_columns ls c : In c (reim_columns ls) <-> is_coord ls c.
Proof.
  destruct c as [k p]. split; [|intros [H1 H2]; apply in_reim; assumption].
  unfold reim_columns. rewrite in_app_iff, !in_map_iff. unfold is_coord. cbn [fst snd].
  intros [[j [E Hj]]|[j [E Hj]]]; injection E as <- <-.
  - apply in_seq in Hj. split; [lia|discriminate].
  - apply filter_In in Hj as [Hj F]. apply in_seq in Hj. split; [lia|auto].
Qed.
Lemma nodup_columns ls : NoDup (reim_columns ls).
Proof.
  unfold reim_columns. 
  assert (P : forall q l, NoDup l -> NoDup (map (fun k : nat => (k, q : bool)) l)).
  { intros q l. apply FinFun.Injective_map_NoDup. intros a b E. now injection E. }
  assert (D : forall l1 l2, NoDup l1 -> NoDup l2 ->
     NoDup (map (fun k : nat => (k, false)) l1 ++ map (fun k : nat => (k, true)) l2)).
  { induction l1 as [|a l1 IH]; intros l2 H1 H2; cbn [map app]; [apply P; exact H2|].
    inversion_clear H1. constructor; [|apply IH; assumption]. rewrite in_app_iff, !in_map_iff.
    intros [[j [E Hj]]|[j [E Hj]]]; injection E; intros; subst; try contradiction; discriminate. }
  apply D; [apply seq_NoDup|apply NoDup_filter, seq_NoDup].
Qed.
Lemma split_reassemble ls x c : is_coord ls c -> split (reassemble ls x) c = x c.
Proof.
  destruct c as [k p]. intros [_ H]. unfold split, reassemble, part. cbn [fst snd] in *. destruct p.
  - rewrite (H eq_refl). reflexivity.
  - destruct (flag ls k); reflexivity.
Qed.
Lemma kernel_ext {I} (C : cring) cols rows shift (v w : I -> T C) c :
  (forall d, In d cols -> v d = w d) -> v c = w c -> kernel C I cols rows shift v c = kernel C I cols rows shift w c.
Proof.
  intros H Hc. unfold kernel. rewrite Hc. f_equal. f_equal. apply map_ext. intros r. do 2 f_equal.
  apply map_ext_in. intros d Hd. now rewrite (H d Hd).
Qed.

(** ** QGTJacobianPyTree *)
Definition cond (x0 : option (nat -> cpx)) (ls : leaves) : Prop := x0 = None \/ has_complex ls = false.
Lemma cond_test x0 ls : cond x0 ls -> match x0 with Some _ => has_complex ls | None => false end = false.
Proof. intros [->|H]; [reflexivity|]. destruct x0; [exact H|reflexivity]. Qed.

Lemma split_mode m ls ranks shift X k : m <> MHolo ->
  matmul_pytree m ls ranks shift X k
  = reassemble ls (mat_vec_pytree rR coord (real_leaves 0 ls) (oks_pytree m ranks) shift (split X)) k.
Proof. destruct m; intros H; [reflexivity|reflexivity|congruence]. Qed.
Lemma ok_split m ss : ok_mode m ss -> m <> MHolo.
Proof. intros H ->. exact H. Qed.

Lemma solve_pytree_main m ls ranks shift sol y x0 :
  even_ranks ranks -> ok_mode m (concat ranks) -> x0 = None \/ has_complex ls = false ->
  exact (is_coord ls) (mat_vec_pytree rR coord (real_leaves 0 ls) (oks_pytree m ranks) shift) sol ->
  exists x, solve_pytree m ls ranks shift false sol y x0 = Ok x /\ natural_gradient ls (concat ranks) shift x y.
Proof.
  intros HE Hm Hx HS. unfold solve_pytree. rewrite (cond_test _ _ Hx). eexists. split; [reflexivity|].
  intros k Hk. rewrite <- (pytree_main m) by assumption. rewrite split_mode by (eapply ok_split; exact Hm).
  set (A := mat_vec_pytree rR coord (real_leaves 0 ls) (oks_pytree m ranks) shift) in *.
  set (out := sol A (split y) (option_map split x0)).
  assert (G : forall c, is_coord ls c -> A (split (reassemble ls out)) c = split y c).
  { intros c Hc. rewrite <- (HS (split y) (option_map split x0) c Hc). fold out. unfold A.
    rewrite !(mat_vec_pytree_is rR rR_laws). apply (kernel_ext rR).
    - intros d Hd. apply split_reassemble, in_leaves, Hd.
    - apply split_reassemble, Hc. }
  unfold reassemble at 1. destruct (flag ls k) eqn:F; rewrite ?G by (split; cbn [fst snd]; auto; discriminate); reflexivity.
Qed.

Lemma colnorm_diagonal m ranks c : even_ranks ranks -> ok_mode m (concat ranks) ->
  colnorm2 (oks_pytree m ranks) c = diagonal (concat ranks) c /\ colnorm2 (oks_dense m ranks) c = diagonal (concat ranks) c.
Proof.
  intros [n [Hn [Hne HF]]] Hm. unfold colnorm2, diagonal. rewrite ravg_is, (length_ss ranks n HF).
  set (N := (n * length ranks)%nat).
  assert (Q : forall t, sr N * sr N * t = / INR N * t) by (intros t; rewrite sr_sq; reflexivity).
  assert (G : lsum rR (map (fun s => row1 ranks n s c * row1 ranks n s c + row2 ranks n s c * row2 ranks n s c) (concat ranks))
    = / INR N * lsum rR (map (fun s => fst (delta (concat ranks) c s) * fst (delta (concat ranks) c s)
                       + snd (delta (concat ranks) c s) * snd (delta (concat ranks) c s)) (concat ranks))).
  { etransitivity; [|exact (lsum_scal rR rR_laws (/ INR N) _ (concat ranks))]. apply (lsum_ext rR). intros s _.
    rewrite (row1_is ranks n HF), (row2_is ranks n HF). fold N. cbn [rR rmul]. rewrite <- Q.
    match goal with |- ?a = ?b => change (@eq R a b) end. ring. }
  destruct m; [| |destruct Hm].
  - assert (G' : lsum rR (map (fun r : coord -> R => r c * r c) (concat (oks_pytree MReal ranks))) =
       / INR N * lsum rR (map (fun s => fst (delta (concat ranks) c s) * fst (delta (concat ranks) c s)
                       + snd (delta (concat ranks) c s) * snd (delta (concat ranks) c s)) (concat ranks))).
    { rewrite <- G, (oks_real_sum ranks n Hne HF (fun r => r c * r c)). apply (lsum_ext rR). intros s Hs.
      assert (D : snd (delta (concat ranks) c s) = 0).
      { unfold delta, avg. cbn [cC rsub snd rscal]. unfold rscal. cbn [snd]. rewrite (Hm s Hs), snd_lsum'.
        rewrite (lsum_zero rR rR_laws) by (intros t Ht; apply (Hm t Ht)). cbn [rR r0]. ring. }
      rewrite (row2_is ranks n HF), D. match goal with |- ?a = ?b => change (@eq R a b) end. ring. }
    split; [exact G'|]. rewrite oks_dense_real. exact G'.
  - split; rewrite <- G.
    + apply (oks_complex_sum ranks n Hne HF MComplex (fun r => r c * r c)). discriminate.
    + apply (oks_dense_complex_sum ranks n Hne HF MComplex (fun r => r c * r c)). discriminate.
Qed.

Lemma solve_pytree_rescaled m ls ranks shift sol y x0 :
  even_ranks ranks -> ok_mode m (concat ranks) -> x0 = None \/ has_complex ls = false ->
  (forall c, is_coord ls c -> diagonal (concat ranks) c <> 0) ->
  exact (is_coord ls) (mat_vec_pytree rR coord (real_leaves 0 ls)
     (fst (rescale rR coord sqrt Rdiv (oks_pytree m ranks))) shift) sol ->
  exists x, solve_pytree m ls ranks shift true sol y x0 = Ok x /\ natural_gradient_rescaled ls (concat ranks) shift x y.
Proof.
  intros HE Hm Hx HD HS. unfold solve_pytree. rewrite (cond_test _ _ Hx). eexists. split; [reflexivity|].
  set (o := oks_pytree m ranks) in *. set (s := scale_of rR coord sqrt o).
  set (A := mat_vec_pytree rR coord (real_leaves 0 ls) (fst (rescale rR coord sqrt Rdiv o)) shift) in *.
  set (g := option_map _ x0). set (out := sol A (fun c => split y c / s c) g).
  set (X := reassemble ls (fun c => out c / s c)).
  assert (Cn : forall c, colnorm2 o c = diagonal (concat ranks) c) by (intros c; apply (colnorm_diagonal m ranks c HE Hm)).
  assert (Hs : forall c, is_coord ls c -> s c <> 0).
  { intros c Hc E. unfold s in E. rewrite scale_real_is in E. apply sqrt_eq_0 in E; [|apply colnorm2_nonneg].
    rewrite Cn in E. exact (HD c Hc E). }
  assert (G : forall c, is_coord ls c ->
     mat_vec_pytree rR coord (real_leaves 0 ls) o 0 (split X) c + shift * diagonal (concat ranks) c * split X c = split y c).
  { intros c Hc. rewrite <- Cn.
    destruct (rescaled_main (real_leaves 0 ls) o shift (split X) c) as [E _].
    { intros d [<-|Hd]; rewrite Cn; apply HD; [exact Hc|apply in_leaves, Hd]. }
    etransitivity; [symmetry; exact E|]. unfold scaled_pytree. cbn [rescale snd]. fold s.
    change (fst (map (map (fun (r : coord -> R) c => r c / scale_of rR coord sqrt o c)) o, scale_of rR coord sqrt o)) with
       (fst (rescale rR coord sqrt Rdiv o)). fold A.
    assert (Ex : A (fun d => rmul rR (split X d) (s d)) c = A out c).
    { unfold A. rewrite !(mat_vec_pytree_is rR rR_laws). 
      assert (Q : forall d, is_coord ls d -> rmul rR (split X d) (s d) = out d).
      { intros d Hd. unfold X. rewrite split_reassemble by exact Hd. cbn [rR rmul].
        match goal with |- ?a = ?b => change (@eq R a b) end. field. apply Hs, Hd. }
      apply (kernel_ext rR); [intros d Hd; apply Q, in_leaves, Hd|apply Q, Hc]. }
    unfold rescale in A. change (A (fun d => rmul rR (split X d) (s d)) c * s c = split y c).
    rewrite Ex. unfold out. rewrite (HS _ g c Hc).
    match goal with |- ?a = ?b => change (@eq R a b) end. field. apply Hs, Hc. }
  intros k Hk. rewrite <- (pytree_main m ls ranks 0 X k) by assumption.
  rewrite split_mode by (eapply ok_split; exact Hm). fold o.
  unfold reassemble. split.
  - assert (Hc : is_coord ls (k, false)) by (split; [exact Hk|discriminate]).
    specialize (G _ Hc). unfold split at 2 3 in G. cbn [fst snd part] in G. destruct (flag ls k); exact G.
  - intros F. rewrite F. assert (Hc : is_coord ls (k, true)) by (split; [exact Hk|auto]).
    specialize (G _ Hc). unfold split at 2 3 in G. cbn [fst snd part] in G. exact G.
Qed.

(** ** QGTJacobianDense *)
Fixpoint pos_from (x : nat -> R) (d : R) (c : coord) (i : nat) (cols : list coord) : R :=
  match cols with
  | [] => d
  | e :: cols => if ((fst c =? fst e)%nat && Bool.eqb (snd c) (snd e))%bool then x i else pos_from x d c (S i) cols
  end.
Lemma positions_from cols x d c : positions cols x d c = pos_from x d c O cols.
Proof.
  unfold positions. generalize O as i. induction cols as [|e cols IH]; intros i; cbn [pos_from]; [reflexivity|].
  rewrite IH. reflexivity.
Qed.
Lemma pos_nth x d : forall cols i j, NoDup cols -> (j < length cols)%nat ->
  pos_from x d (nth j cols (O, false)) i cols = x (i + j)%nat.
Proof.
  induction cols as [|e cols IH]; intros i j Hn Hj; [cbn in Hj; lia|]. inversion_clear Hn. cbn [pos_from].
  destruct j as [|j]; cbn [nth].
  - rewrite (proj2 (coord_eqb_spec e e) eq_refl), Nat.add_0_r. reflexivity.
  - cbn [length] in Hj. destruct (_ && _)%bool eqn:E.
    + apply coord_eqb_spec in E. exfalso. apply H. rewrite <- E. apply nth_In. lia.
    + rewrite IH by (try assumption; lia). f_equal. lia.
Qed.
Lemma pos_ext x x' d c : forall cols i, (forall j, (j < length cols)%nat -> x (i + j)%nat = x' (i + j)%nat) ->
  pos_from x d c i cols = pos_from x' d c i cols.
Proof.
  induction cols as [|e cols IH]; intros i H; cbn [pos_from]; [reflexivity|].
  rewrite (IH (S i)).
  - specialize (H O). rewrite Nat.add_0_r in H. rewrite H by (cbn; lia). reflexivity.
  - intros j Hj. replace (S i + j)%nat with (i + S j)%nat by lia. apply H. cbn [length]. lia.
Qed.

Lemma solve_dense_main m ls ranks shift sol y x0 :
  even_ranks ranks -> ok_mode m (concat ranks) -> homogeneous ls -> x0 = None \/ has_complex ls = false ->
  exact (fun i => (i < length (reim_columns ls))%nat)
    (mat_vec_dense rR nat (seq 0 (length (reim_columns ls)))
      (map (map (fun r i => r (nth i (reim_columns ls) (O, false)))) (oks_dense m ranks)) shift) sol ->
  exists x, solve_dense m ls ranks shift false sol y x0 = Ok x /\ natural_gradient ls (concat ranks) shift x y.
Proof.
  intros HE Hm Hh Hx HS. unfold solve_dense. rewrite <- (columns_agree ls Hh), Nat.eqb_refl. cbn [negb].
  rewrite (cond_test _ _ Hx). eexists. split; [reflexivity|].
  set (jc := reim_columns ls) in *.
  set (rows := map (map (fun r i => r (nth i jc (O, false)))) (oks_dense m ranks)) in *.
  set (A := mat_vec_dense rR nat (seq 0 (length jc)) rows shift) in *.
  set (yv := fun i => split y (nth i jc (O, false))).
  set (g := option_map _ x0). set (out := sol A yv g). set (X := reassemble ls (positions jc out 0)).
  assert (Hnth : forall i, (i < length jc)%nat -> is_coord ls (nth i jc (O, false))).
  { intros i Hi. apply in_columns. apply nth_In, Hi. }
  assert (SX : forall i, (i < length jc)%nat -> split X (nth i jc (O, false)) = out i).
  { intros i Hi. unfold X. rewrite split_reassemble by (apply Hnth, Hi). rewrite positions_from.
    exact (pos_nth out 0 jc O i (nodup_columns ls) Hi). }
  destruct (dense_main m ls ranks shift X HE Hm Hh) as [z [Ez Hz]]. intros k Hk. rewrite <- (Hz k Hk).
  assert (E2 : matmul_dense m ls ranks shift X = Ok (reassemble ls (positions jc (A (fun i => split X (nth i jc (O, false)))) 0))).
  { unfold matmul_dense. rewrite <- (columns_agree ls Hh), Nat.eqb_refl.
    destruct m; [reflexivity|reflexivity|destruct Hm]. }
  rewrite Ez in E2. injection E2 as ->.
  assert (G : forall p, is_coord ls (k, p) -> positions jc (A (fun i => split X (nth i jc (O, false)))) 0 (k, p) = split y (k, p)).
  { intros p Hc. rewrite positions_from. rewrite (pos_ext _ yv).
    - rewrite <- positions_from. apply (positions_at jc (split y) 0). apply in_columns, Hc.
    - intros j Hj. cbn [Nat.add]. transitivity (A out j).
      + unfold A. rewrite !(mat_vec_dense_is rR rR_laws). apply (kernel_ext rR); [|apply SX, Hj].
        intros d Hd. apply in_seq in Hd. apply SX. lia.
      + apply (HS yv g j Hj). }
  unfold reassemble. destruct (flag ls k) eqn:F; rewrite ?G by (split; cbn [fst snd]; auto; discriminate); reflexivity.
Qed.

Lemma solve_dense_rescaled m ls ranks shift sol y x0 :
  even_ranks ranks -> ok_mode m (concat ranks) -> homogeneous ls -> x0 = None \/ has_complex ls = false ->
  (forall c, is_coord ls c -> diagonal (concat ranks) c <> 0) ->
  exact (fun i => (i < length (reim_columns ls))%nat)
    (mat_vec_dense rR nat (seq 0 (length (reim_columns ls))) (fst (rescale rR nat sqrt Rdiv
      (map (map (fun r i => r (nth i (reim_columns ls) (O, false)))) (oks_dense m ranks)))) shift) sol ->
  exists x, solve_dense m ls ranks shift true sol y x0 = Ok x /\ natural_gradient_rescaled ls (concat ranks) shift x y.
Proof.
  intros HE Hm Hh Hx HD HS. unfold solve_dense. rewrite <- (columns_agree ls Hh), Nat.eqb_refl. cbn [negb].
  rewrite (cond_test _ _ Hx). eexists. split; [reflexivity|].
  set (jc := reim_columns ls) in *.
  set (rows := map (map (fun r i => r (nth i jc (O, false)))) (oks_dense m ranks)) in *.
  set (s := scale_of rR nat sqrt rows).
  set (A := mat_vec_dense rR nat (seq 0 (length jc)) (fst (rescale rR nat sqrt Rdiv rows)) shift) in *.
  set (yv := fun i => split y (nth i jc (O, false)) / s i).
  set (g := option_map _ _). set (out := sol A yv g). set (X := reassemble ls (positions jc (fun i => out i / s i) 0)).
  assert (Hnth : forall i, (i < length jc)%nat -> is_coord ls (nth i jc (O, false))).
  { intros i Hi. apply in_columns. apply nth_In, Hi. }
  assert (SX : forall i, (i < length jc)%nat -> split X (nth i jc (O, false)) = out i / s i).
  { intros i Hi. unfold X. rewrite split_reassemble by (apply Hnth, Hi). rewrite positions_from.
    exact (pos_nth (fun i => out i / s i) 0 jc O i (nodup_columns ls) Hi). }
  assert (Sq : forall i, square rR nat rows i = colnorm2 (oks_dense m ranks) (nth i jc (O, false))).
  { intros i. unfold square, colnorm2, rows. rewrite concat_map', map_map. reflexivity. }
  assert (Hr : forall c, rmul rR (s c) (s c) = square rR nat rows c).
  { intros i. unfold s, scale_of. rewrite (lsum_concat rR rR_laws). cbn [rR rmul]. rewrite sqrt_sqrt; [reflexivity|].
    apply lsum_nonneg. intros r _. cbn [rR rconj rmul]. nra. }
  assert (Hs : forall i, (i < length jc)%nat -> s i <> 0).
  { intros i Hi E. specialize (Hr i). rewrite E, Sq in Hr.
    rewrite (proj2 (colnorm_diagonal m ranks _ HE Hm)) in Hr.
    apply (HD _ (Hnth i Hi)). rewrite <- Hr. cbn [rR rmul]. ring. }
  set (A0 := mat_vec_dense rR nat (seq 0 (length jc)) rows 0).
  set (Xv := fun i => split X (nth i jc (O, false))).
  assert (G : forall i, (i < length jc)%nat ->
     A0 Xv i + shift * diagonal (concat ranks) (nth i jc (O, false)) * Xv i = split y (nth i jc (O, false))).
  { intros i Hi. rewrite <- (proj2 (colnorm_diagonal m ranks _ HE Hm)), <- Sq.
    unfold A0. rewrite (mat_vec_dense_is rR rR_laws).
    pose proof (rescaled_kernel rR rR_laws sqrt Rdiv nat rows Hr (fun c => eq_refl) (seq 0 (length jc)) shift Xv i) as K.
    assert (Kd : forall d, In d (i :: seq 0 (length jc)) -> forall x, rmul rR (x / scale_of rR nat sqrt rows d) (scale_of rR nat sqrt rows d) = x).
    { intros d Hd x. fold s. match goal with |- ?a = ?b => change (@eq R a b) end. cbn [rR rmul]. field.
      apply Hs. destruct Hd as [<-|Hd]; [exact Hi|]. apply in_seq in Hd. lia. }
    specialize (K Kd). etransitivity; [symmetry; exact K|]. fold s.
    assert (Ex : kernel rR nat (seq 0 (length jc)) (concat (fst (rescale rR nat sqrt Rdiv rows))) shift (fun d => rmul rR (Xv d) (s d)) i
       = A out i).
    { unfold A. rewrite (mat_vec_dense_is rR rR_laws).
      assert (Q : forall d, (d < length jc)%nat -> rmul rR (Xv d) (s d) = out d).
      { intros d Hd. unfold Xv. rewrite SX by exact Hd. cbn [rR rmul].
        match goal with |- ?a = ?b => change (@eq R a b) end. field. apply Hs, Hd. }
      apply (kernel_ext rR); [|apply Q, Hi]. intros d Hd. apply in_seq in Hd. apply Q. lia. }
    rewrite Ex. unfold out. rewrite (HS yv g i Hi). unfold yv.
    match goal with |- ?a = ?b => change (@eq R a b) end. cbn [rR rmul]. field. apply Hs, Hi. }
  destruct (dense_main m ls ranks 0 X HE Hm Hh) as [z [Ez Hz]]. intros k Hk. rewrite <- (Hz k Hk).
  assert (E2 : matmul_dense m ls ranks 0 X = Ok (reassemble ls (positions jc (A0 Xv) 0))).
  { unfold matmul_dense. rewrite <- (columns_agree ls Hh), Nat.eqb_refl.
    destruct m; [reflexivity|reflexivity|destruct Hm]. }
  rewrite Ez in E2. injection E2 as ->.
  assert (P : forall p, is_coord ls (k, p) ->
     positions jc (A0 Xv) 0 (k, p) + shift * diagonal (concat ranks) (k, p) * split X (k, p) = split y (k, p)).
  { intros p Hc. apply in_columns in Hc. fold jc in Hc. destruct (In_nth jc (k, p) (O, false) Hc) as [i [Hi E]].
    assert (Pn : positions jc (A0 Xv) 0 (k, p) = A0 Xv i).
    { rewrite <- E, positions_from. exact (pos_nth (A0 Xv) 0 jc O i (nodup_columns ls) Hi). }
    rewrite Pn. specialize (G i Hi). unfold Xv at 2 in G. rewrite E in G. exact G. }
  unfold reassemble. split.
  - assert (Hc : is_coord ls (k, false)) by (split; [exact Hk|discriminate]).
    specialize (P _ Hc). change (split X (k, false)) with (fst (X k)) in P. change (split y (k, false)) with (fst (y k)) in P.
    destruct (flag ls k); exact P.
  - intros F. rewrite F. assert (Hc : is_coord ls (k, true)) by (split; [exact Hk|intros _; exact F]).
    specialize (P _ Hc). change (split X (k, true)) with (snd (X k)) in P. change (split y (k, true)) with (snd (y k)) in P. exact P.
Qed.

(** ** holomorphic, on the fly *)
Lemma solve_holo_main ls ranks shift sol sol' y x0 :
  even_ranks ranks -> holomorphic ls (concat ranks) ->
  exact (fun k => (k < n_pars ls)%nat) (mat_vec_pytree cC nat (holo_leaves ls) (oks_holo ls ranks) (shift, 0)) sol ->
  exact (fun k => (k < n_pars ls)%nat) (mat_vec_dense cC nat (seq 0 (n_pars ls)) (oks_holo ls ranks) (shift, 0)) sol' ->
  (exists x, solve_pytree_holo ls ranks shift sol y x0 = Ok x /\ natural_gradient_holo (n_pars ls) (concat ranks) shift x y) /\
  (exists x, solve_dense_holo ls ranks shift sol' y x0 = Ok x /\ natural_gradient_holo (n_pars ls) (concat ranks) shift x y).
Proof.
  intros HE HH HS HS'. split; eexists; (split; [reflexivity|]); intros k Hk.
  - rewrite <- (HS y x0 k Hk). set (x := sol _ _ _).
    destruct (holo_main ls ranks shift x HE HH) as [z [_ Q]]. destruct (Q k Hk) as [_ [Q2 _]]. rewrite <- Q2.
    unfold matmul_pytree, cast. now rewrite (proj1 HH k Hk).
  - rewrite <- (HS' y x0 k Hk). set (x := sol' _ _ _).
    destruct (holo_main ls ranks shift x HE HH) as [z [Ez Q]]. destruct (Q k Hk) as [Q1 _]. rewrite <- Q1.
    unfold matmul_dense in Ez. injection Ez as <-. unfold cast. now rewrite (proj1 HH k Hk).
Qed.
Lemma solve_onthefly_main ls ranks shift sol y x0 : even_ranks ranks ->
  exact_on (typed ls) (fun k => (k < n_pars ls)%nat) (matmul_onthefly ls ranks shift) sol ->
  exists x, solve_onthefly ls ranks shift sol y x0 = Ok x /\ natural_gradient ls (concat ranks) shift x y.
Proof.
  intros HE HS. eexists. split; [reflexivity|]. intros k Hk. rewrite <- onthefly_main by assumption.
  rewrite (HS (cast ls y) _ ltac:(intros i Hi; rewrite cast_flag; cbn [snd]; rewrite Hi; reflexivity) k Hk). apply cast_flag.
Qed.

(** ** uniqueness *)
Lemma geometric_sub ls ss shift u v k : geometric ls ss shift (fun k => rsub cC (u k) (v k)) k
  = rsub cC (geometric ls ss shift u k) (geometric ls ss shift v k).
Proof.
  assert (D : forall s, delta_v ls ss (fun k => rsub cC (u k) (v k)) s = rsub cC (delta_v ls ss u s) (delta_v ls ss v s)).
  { intros s. unfold delta_v. rewrite <- (fsum_sub cC cC_laws). apply (fsum_ext cC). intros i _.
    unfold rscal. destruct (flag ls i); apply injective_projections; cbn [cC radd rsub fst snd]; ring. }
  unfold geometric. rewrite !ravg_is.
  assert (E : forall c, lsum rR (map (fun s => fst (rmul cC (rconj cC (delta ss c s)) (delta_v ls ss (fun k => rsub cC (u k) (v k)) s))) ss)
     = lsum rR (map (fun s => fst (rmul cC (rconj cC (delta ss c s)) (delta_v ls ss u s))) ss)
       - lsum rR (map (fun s => fst (rmul cC (rconj cC (delta ss c s)) (delta_v ls ss v s))) ss)).
  { intros c. etransitivity; [|exact (lsum_sub rR rR_laws _ _ ss)]. apply (lsum_ext rR). intros s _. rewrite D.
    cbn [cC rmul rconj rsub fst snd]. match goal with |- ?a = ?b => change (@eq R a b) end. cbn [rR rsub]. ring. }
  rewrite !E. destruct (flag ls k); apply injective_projections; cbn [cC rsub fst snd]; ring.
Qed.
Lemma solution_unique ls ss shift x x' y : 0 < shift ->
  natural_gradient ls ss shift x y -> natural_gradient ls ss shift x' y -> same_vector ls x x'.
Proof.
  intros Hs H H'. set (d := fun k => rsub cC (x k) (x' k)).
  assert (Z : forall k, (k < n_pars ls)%nat -> geometric ls ss shift d k = (0, 0)).
  { intros k Hk. unfold d. rewrite geometric_sub, (H k Hk), (H' k Hk). cbn [cC rsub fst snd]. f_equal; ring. }
  assert (I0 : inner ls d (geometric ls ss shift d) = 0).
  { unfold inner. rewrite (fsum_ext cC _ _ (fun _ => r0 cC)).
    - rewrite (fsum_zero cC cC_laws) by reflexivity. reflexivity.
    - intros k Hk. rewrite (Z k Hk). cbn [fst snd]. destruct (flag ls k); cbn [cC r0]; f_equal; ring. }
  intros k Hk. split.
  - destruct (Req_dec (fst (d k)) 0) as [E|E]; [unfold d in E; cbn [cC rsub fst] in E; lra|].
    pose proof (definite_main ls ss shift d k Hs Hk (or_introl E)). lra.
  - intros F. destruct (Req_dec (snd (d k)) 0) as [E|E]; [unfold d in E; cbn [cC rsub snd] in E; lra|].
    pose proof (definite_main ls ss shift d k Hs Hk (or_intror (Logic.conj F E))). lra.
Qed.

(** ** direct solvers *)
Lemma direct_exact {I} (C : cring) (idx : I -> Prop) cols (A : (I -> T C) -> I -> T C) M routine :
  (forall i, idx i -> In i cols) ->
  (forall v i, idx i -> A v i = lsum C (map (fun j => rmul C (M i j) (v j)) cols)) ->
  exact_dense C cols M routine -> exact idx A (direct M routine).
Proof. intros Hi HA HM y x0 i H. unfold direct. rewrite HA by exact H. apply HM, Hi, H. Qed.
Lemma nodup_real ls : forall off, NoDup (concat (real_leaves off ls)).
Proof.
  induction ls as [|[b n] ls IH]; intros off; cbn [real_leaves]; [constructor|]. rewrite concat_app.
  assert (P : forall q l, NoDup l -> NoDup (map (fun k : nat => (k, q : bool)) l)).
  { intros q l. apply FinFun.Injective_map_NoDup. intros x y E. now injection E. }
  assert (D : forall l1 l2 : list coord, NoDup l1 -> NoDup l2 -> (forall x, In x l1 -> In x l2 -> False) -> NoDup (l1 ++ l2)).
  { induction l1 as [|x l1 IH1]; intros l2 H1 H2 H; cbn [app]; [exact H2|]. inversion_clear H1. constructor.
    - rewrite in_app_iff. intros [Q|Q]; [contradiction|]. apply (H x); [now left|exact Q].
    - apply IH1; auto. intros z Hz. apply H. now right. }
  assert (S : forall k p, In (k, p) (concat (if b then [map (fun k => (k, false)) (seq off n); map (fun k => (k, true)) (seq off n)]
                         else [map (fun k => (k, false)) (seq off n)])) -> (k < off + n)%nat).
  { intros k p. destruct b; cbn [concat]; rewrite ?app_nil_r, ?in_app_iff, !in_map_iff; intros H;
      repeat destruct H as [H|H]; destruct H as [j [E Hj]]; injection E as <- <-; apply in_seq in Hj; lia. }
  apply D; [| |].
  - destruct b; cbn [concat]; rewrite app_nil_r; [apply D|]; try (apply P, seq_NoDup).
    intros [k p]. rewrite !in_map_iff. intros [i [E1 _]] [j [E2 _]]. congruence.
  - apply IH.
  - intros [k p] H1 H2. apply S in H1. apply in_real_leaves in H2. cbn [fst snd] in H2. lia.
Qed.
Definition coord_eqb (c d : coord) : bool := ((fst c =? fst d)%nat && Bool.eqb (snd c) (snd d))%bool.
Lemma direct_pytree m ls ranks shift routine y x0 :
  even_ranks ranks -> ok_mode m (concat ranks) -> x0 = None \/ has_complex ls = false ->
  let M := to_dense_jac rR coord (oks_pytree m ranks) shift (fun c d => (fst c =? fst d)%nat && Bool.eqb (snd c) (snd d))%bool in
  exact_dense rR (concat (real_leaves 0 ls)) M routine ->
  exists x, solve_pytree m ls ranks shift false (direct M routine) y x0 = Ok x /\ natural_gradient ls (concat ranks) shift x y.
Proof.
  intros HE Hm Hx M HM. apply solve_pytree_main; try assumption.
  apply (direct_exact rR _ (concat (real_leaves 0 ls))); [intros c; apply in_leaves| |exact HM].
  intros v c Hc. apply dense_matrix_real; [apply nodup_real|apply in_leaves, Hc].
Qed.
Lemma direct_dense m ls ranks shift routine y x0 :
  even_ranks ranks -> ok_mode m (concat ranks) -> homogeneous ls -> x0 = None \/ has_complex ls = false ->
  let M := to_dense_jac rR nat (map (map (fun r i => r (nth i (reim_columns ls) (O, false)))) (oks_dense m ranks)) shift Nat.eqb in
  exact_dense rR (seq 0 (length (reim_columns ls))) M routine ->
  exists x, solve_dense m ls ranks shift false (direct M routine) y x0 = Ok x /\ natural_gradient ls (concat ranks) shift x y.
Proof.
  intros HE Hm Hh Hx M HM. apply solve_dense_main; try assumption.
  apply (direct_exact rR _ (seq 0 (length (reim_columns ls)))); [intros c Hc; apply in_seq; lia| |exact HM].
  intros v i Hi. rewrite (mat_vec_dense_is rR rR_laws).
  rewrite (kernel_matrix rR rR_laws nat _ _ shift v i Nat.eqb Nat.eqb_eq (seq_NoDup _ _)) by (apply in_seq; lia).
  apply (lsum_ext rR). intros d _. unfold M. rewrite (to_dense_is rR rR_laws). reflexivity.
Qed.
Lemma direct_onthefly_holo ls ranks shift routine y x0 :
  even_ranks ranks -> holomorphic ls (concat ranks) ->
  let M := to_dense_onthefly ls ranks shift true in
  exact_dense cC (seq 0 (n_pars ls)) M routine ->
  exists x, solve_onthefly ls ranks shift (direct M routine) y x0 = Ok x /\ natural_gradient ls (concat ranks) shift x y.
Proof.
  intros HE HH M HM. apply solve_onthefly_main; [assumption|]. intros z g _. revert z g.
  apply (direct_exact cC _ (seq 0 (n_pars ls))); [intros c Hc; apply in_seq; lia| |exact HM].
  intros v k Hk. rewrite onthefly_main by assumption. rewrite (geometric_holo_is ls _ _ _ _ HH Hk).
  rewrite <- (fsum_lsum cC cC_laws). unfold geometric_holo.
  rewrite (fsum_ext cC _ (fun j => rmul cC (M k j) (v j)) (fun l => radd cC
     (rmul cC (avg (concat ranks) (fun s => rmul cC (rconj cC (delta (concat ranks) (k, false) s)) (delta (concat ranks) (l, false) s))) (v l))
     (if (l =? k)%nat then rscal shift (v l) else r0 cC))).
  - rewrite (fsum_add cC cC_laws). f_equal.
    symmetry. exact (fsum_delta cC cC_laws (n_pars ls) (fun l => rscal shift (v l)) k Hk).
  - intros l Hl. unfold M. rewrite (onthefly_dense_holo ls ranks shift k l HE HH Hk Hl).
    rewrite (Nat.eqb_sym l k). destruct (k =? l)%nat; unfold rscal;
      apply injective_projections; cbn [cC radd rmul r0 fst snd]; ring.
Qed.
Lemma delta_v_real ls ss v s : Forall (fun b => fst b = false) ls ->
  delta_v ls ss v s = fsum cC (n_pars ls) (fun l => rscal (fst (v l)) (delta ss (l, false) s)).
Proof.
  intros HA. unfold delta_v. apply (fsum_ext cC). intros l _. rewrite (flag_all_false ls l HA).
  unfold rscal. apply injective_projections; cbn [cC radd fst snd]; ring.
Qed.
Lemma direct_onthefly_real ls ranks shift routine y x0 :
  even_ranks ranks -> Forall (fun b => fst b = false) ls ->
  let M := to_dense_onthefly ls ranks shift false in
  exact_dense cC (seq 0 (n_pars ls)) M routine ->
  exists x, solve_onthefly ls ranks shift (direct M routine) y x0 = Ok x /\ natural_gradient ls (concat ranks) shift x y.
Proof.
  intros HE HA M HM. eexists. split; [reflexivity|]. unfold direct. intros k Hk.
  set (x := routine M (cast ls y)). specialize (HM (cast ls y) k).
  assert (HM' := HM ltac:(apply in_seq; lia)). fold x in HM'. clear HM.
  rewrite (flag_all_false ls k HA). unfold geometric. rewrite (flag_all_false ls k HA). f_equal.
  apply (f_equal fst) in HM'. rewrite cast_flag in HM'. cbn [fst] in HM'. rewrite <- HM'.
  rewrite <- (fsum_lsum cC cC_laws). rewrite (fst_fsum (n_pars ls)).
  set (d := fun l s => delta (concat ranks) (l, false) s).
  set (a := fun l => ravg (concat ranks) (fun s => fst (rmul cC (rconj cC (d k s)) (d l s)))).
  transitivity (fsum rR (n_pars ls) (fun l => radd rR (a l * fst (x l)) (if (l =? k)%nat then shift * fst (x l) else r0 rR))).
  - rewrite (fsum_add rR rR_laws). cbn [rR radd]. f_equal.
    + rewrite ravg_is. rewrite (lsum_ext rR _ (fun s => fsum rR (n_pars ls) (fun l => fst (rmul cC (rconj cC (d k s)) (d l s)) * fst (x l)))).
      * rewrite (lsum_fsum_swap rR rR_laws). etransitivity; [symmetry; exact (fsum_scal rR rR_laws (n_pars ls) (/ INR (length (concat ranks))) _)|].
        apply (fsum_ext rR). intros l _. unfold a. rewrite ravg_is. cbn [rR rmul].
        rewrite (lsum_scal_r' rR rR_laws (fst (x l))). symmetry. apply Rmult_assoc.
      * intros s _. rewrite (delta_v_real ls _ _ _ HA).
        rewrite <- (fsum_scal cC cC_laws). rewrite (fst_fsum (n_pars ls)). apply (fsum_ext rR). intros l _.
        unfold rscal. fold (d k s) (d l s). cbn [cC rmul rconj fst snd].
        match goal with |- ?u = ?w => change (@eq R u w) end. ring.
    + symmetry. exact (fsum_delta rR rR_laws (n_pars ls) (fun l => shift * fst (x l)) k Hk).
  - apply (fsum_ext rR). intros l Hl. unfold M. rewrite (onthefly_dense_real ls ranks shift k l HE HA Hk Hl).
    fold (d k) (d l). change (ravg (concat ranks) (fun s => fst (rmul cC (rconj cC (delta (concat ranks) (k, false) s)) (delta (concat ranks) (l, false) s)))) with (a l).
    rewrite (Nat.eqb_sym l k). cbn [cC rmul fst snd rR radd r0].
    destruct (k =? l)%nat; match goal with |- ?u = ?w => change (@eq R u w) end; ring.
Qed.

(** ** the preconditioner *)
Lemma prec_calls_main {VS V} (solve : VS -> V -> option V -> res V) calls : forall p,
  fst (prec_calls solve p calls) = successive (fun last => if solver_restart p then last else None) solve (x0 p) calls.
Proof.
  induction calls as [|[s f] calls IH]; intros p; [reflexivity|]. cbn [prec_calls successive].
  unfold prec_call. destruct p as [r x]. cbn [solver_restart x0]. destruct (solve s f (if r then x else None)) as [z|e] eqn:E.
  - specialize (IH (Prec r (Some z))). cbn [solver_restart x0] in IH. destruct (prec_calls _ _ calls) as [rs q]. cbn [fst] in *.
    rewrite IH. reflexivity.
  - specialize (IH (Prec r x)). cbn [solver_restart x0] in IH. destruct (prec_calls _ _ calls) as [rs q]. cbn [fst] in *.
    rewrite IH. reflexivity.
Qed.
Lemma prec_inverted {VS V} (solve : VS -> V -> option V -> res V) restart calls :
  fst (prec_calls solve (new_prec restart) calls) = successive (documented_guess (negb restart)) solve None calls.
Proof. rewrite prec_calls_main. unfold new_prec. cbn [solver_restart x0]. unfold documented_guess. destruct restart; reflexivity. Qed.
Lemma successive_none {VS V} (solve : VS -> V -> option V -> res V) calls : forall last,
  successive (fun _ => None) solve last calls = map (fun c => solve (fst c) (snd c) None) calls.
Proof. induction calls as [|[s f] calls IH]; intros last; cbn [successive map fst snd]; [reflexivity|]. now rewrite IH. Qed.
Lemma successive_all {VS V} (P : VS -> V -> V -> Prop) rule (solve : VS -> V -> option V -> res V) calls :
  (forall s f g, exists x, solve s f g = Ok x /\ P s f x) ->
  forall last, Forall2 (fun c r => exists x, r = Ok x /\ P (fst c) (snd c) x) calls (successive rule solve last calls).
Proof.
  intros H. induction calls as [|[s f] calls IH]; intros last; cbn [successive]; constructor; [apply H|apply IH].
Qed.
Lemma restart_fails m ls shift resc sol (calls : list (list (list sample) * (nat -> cpx))) first :
  has_complex ls = true ->
  fst (prec_calls (fun ranks f g => solve_pytree m ls ranks shift resc sol f g) (new_prec true) (first :: calls))
  = solve_pytree m ls (fst first) shift resc sol (snd first) None :: map (fun _ => Err ValueError) calls.
Proof.
  intros Hc. rewrite prec_calls_main. unfold new_prec. cbn [solver_restart x0 successive]. destruct first as [r0 f0]. cbn [fst snd].
  assert (E : exists x, solve_pytree m ls r0 shift resc sol f0 None = Ok x) by (unfold solve_pytree; destruct resc; eexists; reflexivity).
  destruct E as [x E]. rewrite E. f_equal. clear E. revert x.
  induction calls as [|[r f] calls IH]; intros x; [reflexivity|]. cbn [successive map].
  assert (E : solve_pytree m ls r shift resc sol f (Some x) = Err ValueError) by (unfold solve_pytree; rewrite Hc; reflexivity).
  rewrite E. f_equal. apply IH.
Qed.

(** log psi = Re(p) s for s = 1, 3. *)
Definition re_sample (x : R) : sample := Sample (fun _ => (x, 0)) (fun _ => (0, 0)).
Definition re_ranks : list (list sample) := [[re_sample 1; re_sample 3]].
Lemma re_geometric shift v : geometric [(true, 1%nat)] (concat re_ranks) shift v 0
  = ((1 + shift) * fst (v 0%nat), shift * snd (v 0%nat)).
Proof.
  unfold geometric, ravg, avg, delta_v, delta, avg, entry, re_ranks, re_sample, rscal, flag.
  cbn [fsum map concat app lsum length n_pars jx jy fst snd INR cC radd rmul rsub rconj r0 Nat.ltb Nat.leb Nat.add].
  apply injective_projections; cbn [fst snd]; field.
Qed.
Lemma re_even : even_ranks re_ranks.
Proof. exists 2%nat. split; [lia|]. split; [discriminate|]. repeat constructor. Qed.
Lemma re_dense shift : to_dense_onthefly [(true, 1%nat)] re_ranks shift true 0 0 = (1 + shift, 0).
Proof.
  unfold to_dense_onthefly. rewrite (QGT_Proofs.onthefly_main _ _ _ _ _ re_even) by (cbn; lia). rewrite re_geometric.
  cbn [Nat.eqb fst snd]. f_equal; ring.
Qed.
Lemma direct_onthefly_counter : exists ls ranks shift y, even_ranks ranks /\ 0 < shift /\
  let M := to_dense_onthefly ls ranks shift true in
  (exists routine, exact_dense cC (seq 0 (n_pars ls)) M routine) /\
  forall routine x0 x, exact_dense cC (seq 0 (n_pars ls)) M routine ->
    solve_onthefly ls ranks shift (direct M routine) y x0 = Ok x -> ~ natural_gradient ls (concat ranks) shift x y.
Proof.
  exists [(true, 1%nat)], re_ranks, 1, (fun _ => (0, 1)). split; [exact re_even|]. split; [lra|]. cbv zeta. split.
  - exists (fun _ y _ => (fst (y 0%nat) / 2, snd (y 0%nat) / 2)). intros y i Hi. cbn [n_pars snd Nat.add seq] in *.
    destruct Hi as [<-|[]]. cbn [map lsum]. rewrite re_dense. cbn [cC radd rmul r0 fst snd].
    apply injective_projections; cbn [fst snd]; field.
  - intros routine x0 x HM Hx. unfold solve_onthefly, direct in Hx. injection Hx as <-. intros N.
    specialize (N 0%nat ltac:(cbn; lia)). rewrite re_geometric in N.
    specialize (HM (cast [(true, 1%nat)] (fun _ => (0, 1))) 0%nat ltac:(cbn; auto)).
    set (x := routine _ _) in *. cbn [n_pars snd Nat.add seq map lsum] in HM. rewrite re_dense in HM.
    unfold cast in HM. cbn [flag Nat.ltb Nat.leb fst snd cC radd rmul r0] in HM, N.
    injection HM as H1 H2. injection N as N1 N2. lra.
Qed.

Lemma documented_counter : exists (solve : unit -> nat -> option nat -> res nat) restart calls,
  fst (prec_calls solve (new_prec restart) calls) <> successive (documented_guess restart) solve None calls.
Proof.
  exists (fun _ f g => Ok (f + match g with None => O | Some x => x end)%nat), false, [(tt, 1%nat); (tt, 1%nat)].
  vm_compute. discriminate.
Qed.
Lemma prec_sequence : forall VS V (P : VS -> V -> V -> Prop) (solve : VS -> V -> option V -> res V) restart calls,
  (forall s f g, exists x, solve s f g = Ok x /\ P s f x) ->
  Forall2 (fun c r => exists x, r = Ok x /\ P (fst c) (snd c) x) calls (fst (prec_calls solve (new_prec restart) calls)).
Proof. intros. rewrite prec_inverted. apply successive_all. exact H. Qed.
Lemma prec_onthefly : forall ls shift sol restart (calls : list (list (list sample) * (nat -> cpx))),
  Forall (fun c => even_ranks (fst c) /\
    exact_on (typed ls) (fun k => (k < n_pars ls)%nat) (matmul_onthefly ls (fst c) shift) sol) calls ->
  Forall2 (fun c r => exists x, r = Ok x /\ natural_gradient ls (concat (fst c)) shift x (snd c)) calls
    (fst (prec_calls (fun ranks f g => solve_onthefly ls ranks shift sol f g) (new_prec restart) calls)).
Proof.
  intros ls shift sol restart calls HE. rewrite prec_inverted. generalize (@None (nat -> cpx)) as last.
  induction HE as [|[r f] calls H HE IH]; intros last; cbn [successive]; constructor; [|apply IH].
  cbn [fst snd]. apply solve_onthefly_main; apply H.
Qed.

Lemma one_geometric shift v : geometric [(false, 1%nat)] (concat re_ranks) shift v 0 = ((1 + shift) * fst (v 0%nat), 0).
Proof.
  unfold geometric, ravg, avg, delta_v, delta, avg, entry, re_ranks, re_sample, rscal, flag.
  cbn [fsum map concat app lsum length n_pars jx jy fst snd INR cC radd rmul rsub rconj r0 Nat.ltb Nat.leb Nat.add].
  apply injective_projections; cbn [fst snd]; field.
Qed.
