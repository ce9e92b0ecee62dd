From Coq Require Import List Arith ZArith Lia Bool Reals Lra.
From Verif Require Import Base Rings ARNN_Model ARNN_Proofs ToArray_Model Estim_Model Estim_Spec Estim_Proofs
  Balance_Spec Balance_Proofs LegQsr_Model LegQsr_Spec LegQsr_Proofs.
Import ListNotations.
Open Scope R_scope.

Lemma form_delta n (v : nat -> cpx) d k : (k < n)%nat ->
  form n (fun i => if (i =? k)%nat then v i else r0 cC) d = fst (conj (d k) * v k)%C.
Proof.
  intros H. unfold form. f_equal.
  transitivity (fsum cC n (fun i => if (i =? k)%nat then conj (d i) * v i else r0 cC)%C).
  - apply fsum_ext. intros i _. destruct (i =? k)%nat; [reflexivity|ring].
  - apply (fsum_delta cC cC_laws n (fun i => conj (d i) * v i)%C k H).
Qed.
Lemma form_determines n d e : (forall v, form n v d = form n v e) -> forall k, (k < n)%nat -> d k = e k.
Proof.
  intros H k Hk.
  pose proof (H (fun i => if (i =? k)%nat then (1, 0) else r0 cC)) as H1.
  pose proof (H (fun i => if (i =? k)%nat then (0, 1) else r0 cC)) as H2.
  rewrite !(form_delta n (fun _ => (1, 0))) in H1 by exact Hk.
  rewrite !(form_delta n (fun _ => (0, 1))) in H2 by exact Hk.
  cbn [cC rmul rconj fst snd] in H1, H2. destruct (d k) as [a b], (e k) as [a' b']. cbn [fst snd] in H1, H2.
  f_equal; lra.
Qed.
Lemma vec_determined n (d e : list cpx) : length d = n -> length e = n ->
  (forall v, slope n d v = slope n e v) -> d = e.
Proof.
  intros Hd He H. apply (@nth_ext cpx _ _ (0, 0) (0, 0)); [congruence|]. intros k Hk.
  apply (form_determines n (entry d) (entry e)); [|rewrite <- Hd; exact Hk]. intros v. exact (H v).
Qed.
Lemma average_ext {X} (f g : X -> R) l : (forall x, In x l -> f x = g x) -> average f l = average g l.
Proof. intros H. unfold average. rewrite (rsum_ext f g) by exact H. reflexivity. Qed.
Lemma average_map {X Y} (f : Y -> R) (g : X -> Y) l : average f (map g l) = average (fun x => f (g x)) l.
Proof. unfold average. rewrite rsum_map, map_length. reflexivity. Qed.
Lemma nth_error_nth' {A} (l : list A) i d : (i < length l)%nat -> nth_error l i = Some (nth i l d).
Proof. apply nth_error_nth'. Qed.

Section Step.
  Variables (N : nat) (U : nat -> nat -> nat -> cpx) (rots : list conn_of) (m : qmach) (ts bs : list nat).
  Hypothesis HR : rotations N U rots.
  Hypothesis HT : training_set N rots ts bs.
  Hypothesis HW : q_writes m = true.
  Variables (n batch k : nat).
  Hypotheses (Hn : (0 < n)%nat) (Hb : (0 < batch)%nat) (Hk : (0 < k)%nat).
  Let np := q_npar m.
  Definition amp (d : nat * nat) : cpx := measured N U (q_log m) d.
  Definition pos_vec (d : nat * nat) : list cpx := map (fun q => conj (log_slope N (U (snd d)) m (fst d) q)) (seq 0 np).

  Lemma drawn_ok i : (i < length ts)%nat ->
    (fst (pick ts bs i) < N)%nat /\ exists conn, nth_error rots (snd (pick ts bs i)) = Some conn /\ describes N (U (snd (pick ts bs i))) conn.
  Proof.
    intros Hi. destruct HT as (E & F1 & F2). cbn [pick fst snd]. rewrite Forall_forall in F1, F2. split.
    - apply F1, nth_In, Hi.
    - assert (L : (nth i bs 0 < length rots)%nat) by (apply F2, nth_In; lia).
      exists (nth (nth i bs 0%nat) rots (fun _ => [])). split; [apply nth_error_nth', L|].
      apply HR. apply nth_error_nth', L.
  Qed.
  Lemma take_ok l ind : Forall (fun i => (i < length l)%nat) ind -> take_at l ind = Ok (map (fun i => nth i l 0%nat) ind).
  Proof.
    intros F. unfold take_at. rewrite Forall_forall in F. apply sequence_map. intros i Hi.
    rewrite (nth_error_nth' l i 0%nat) by (apply F, Hi). reflexivity.
  Qed.
  Lemma combine_pick ind : combine (map (fun i => nth i ts 0%nat) ind) (map (fun i => nth i bs 0%nat) ind) = map (pick ts bs) ind.
  Proof. induction ind as [|i l IH]; [reflexivity|]. cbn [map combine]. rewrite IH. reflexivity. Qed.
  Lemma map_fst_combine {A B C} (f : A -> C) (a : list A) (b : list B) : length a = length b ->
    map (fun q => f (fst q)) (combine a b) = map f a.
  Proof.
    revert b. induction a as [|x a IH]; intros [|y b] H; try discriminate; [reflexivity|].
    cbn [combine map fst]. rewrite IH by (injection H; auto). reflexivity.
  Qed.

  Lemma positive_rows r : shaped N n batch k ts r ->
    positive m rots ts bs r =
      let? rows := sequence (map (fun q => rotated_grad m rots (fst (fst q)) (snd (fst q)) (snd q))
        (combine (map (pick ts bs) (i_ind r)) (i_data_grads r))) in Ok (mean_opt np rows).
  Proof.
    intros (_ & _ & _ & F & _). unfold positive. rewrite take_ok by exact F. cbn [bind].
    rewrite take_ok. 2:{ destruct HT as (E & _). rewrite E. exact F. } cbn [bind]. rewrite combine_pick. reflexivity.
  Qed.
  Lemma positive_value r : shaped N n batch k ts r ->
    (forall i, In i (i_ind r) -> cnorm2 (amp (pick ts bs i)) <> 0) ->
    positive m rots ts bs r = Ok (Some (mean_rows np (map (fun i => pos_vec (pick ts bs i)) (i_ind r)))).
  Proof.
    intros S HA. rewrite positive_rows by exact S. destruct S as (_ & _ & L & F & _ & L2).
    rewrite (sequence_map _ (fun q => Some (pos_vec (fst q)))).
    - cbn [bind]. unfold mean_opt. f_equal.
      rewrite (map_fst_combine (fun d => Some (pos_vec d))) by (rewrite map_length; lia).
      rewrite (all_some_map pos_vec). cbn [option_map]. f_equal. f_equal. now rewrite map_map.
    - intros [d out] Hq. apply in_combine_l in Hq. cbn [fst snd]. apply in_map_iff in Hq. destruct Hq as (i & <- & Hi).
      rewrite Forall_forall in F. destruct (drawn_ok i (F i Hi)) as (Hx & conn & Ec & D).
      apply (rotated_grad_value N (U (snd (pick ts bs i))) conn m); auto. exact (HA i Hi).
  Qed.
  Lemma positive_nan r i conn : shaped N n batch k ts r -> In i (i_ind r) ->
    (forall i, In i (i_ind r) -> forall conn, nth_error rots (snd (pick ts bs i)) = Some conn -> conn (fst (pick ts bs i)) <> []) ->
    nth_error rots (snd (pick ts bs i)) = Some conn -> cnorm2 (amp (pick ts bs i)) = 0 ->
    positive m rots ts bs r = Ok None.
  Proof.
    intros S Hi Hne Ec HA. rewrite positive_rows by exact S. destruct S as (_ & _ & L & F & _ & L2).
    rewrite Forall_forall in F.
    assert (G : forall q, In q (combine (map (pick ts bs) (i_ind r)) (i_data_grads r)) ->
       rotated_grad m rots (fst (fst q)) (snd (fst q)) (snd q) =
       Ok (if Req_EM_T (cnorm2 (amp (fst q))) 0 then None else Some (pos_vec (fst q)))).
    { intros [d out] Hq. apply in_combine_l in Hq. cbn [fst snd]. apply in_map_iff in Hq. destruct Hq as (j & <- & Hj).
      destruct (drawn_ok j (F j Hj)) as (Hx & cj & Ej & D).
      destruct (Req_EM_T (cnorm2 (amp (pick ts bs j))) 0) as [Z|Z].
      - apply (rotated_grad_nan N (U (snd (pick ts bs j))) cj m); eauto.
      - apply (rotated_grad_value N (U (snd (pick ts bs j))) cj m); auto. }
    rewrite (sequence_map _ _ _ G). cbn [bind]. unfold mean_opt.
    rewrite (map_fst_combine (fun d => if Req_EM_T (cnorm2 (amp d)) 0 then None else Some (pos_vec d))) by (rewrite map_length; lia).
    rewrite all_some_none; [reflexivity|]. rewrite map_map. apply in_map_iff. exists i. split; [|exact Hi].
    destruct (Req_EM_T (cnorm2 (amp (pick ts bs i))) 0); [reflexivity|contradiction].
  Qed.

  (** negative phase *)
  Definition neg_vec (l : list nat) : list cpx :=
    map (fun q => lsum cC (map (fun p => conj (entry (q_der m (fst p)) q) * snd p)%C (combine l (repeat (/ INR batch, 0) batch)))) (seq 0 np).
  Lemma negative_value r : shaped N n batch k ts r -> negative m batch r = Some (mean_rows np (map neg_vec (i_samples r))).
  Proof.
    intros (L & _ & _ & _ & L2 & _). unfold negative, mean_opt, vjp. rewrite HW.
    assert (L' : length (i_samples r) = length (i_grads r)) by (rewrite L, L2; reflexivity).
    exact (eq_trans (f_equal (fun z => option_map (mean_rows np) (all_some z)) (map_fst_combine (fun l => Some (neg_vec l)) _ _ L'))
      (f_equal (option_map (mean_rows np)) (all_some_map neg_vec _))).
  Qed.
  Variable v : nat -> cpx.
  Definition gs (s : nat) : R := fst (fsum cC np (fun q => entry (q_der m s) q * v q)%C).
  Definition ps (d : nat * nat) : R := form np v (fun q => conj (log_slope N (U (snd d)) m (fst d) q)).
  Lemma form_neg l : length l = batch -> form np v (entry (neg_vec l)) = average gs l.
  Proof.
    intros L.
    rewrite (form_ext np v _ (fun q => rscal (/ INR batch) (lsum cC (map (fun s => conj (entry (q_der m s) q)) l)))).
    - rewrite form_scal, form_lsum. unfold average. rewrite L.
      rewrite (rsum_ext _ gs); [unfold Rdiv; ring|]. intros s _. apply form_conj.
    - intros q Hq. unfold neg_vec. rewrite entry_map_seq by exact Hq. rewrite <- L. generalize (/ INR (length l)). intros c.
      clear L. induction l as [|s l IH]; cbn [length repeat combine map lsum].
      + unfold rscal. cpx; cbn [fst snd]; ring.
      + rewrite IH. unfold rscal. cbn [fst snd]. cpx; cbn [fst snd]; ring.
  Qed.
  Lemma form_pos d : form np v (entry (pos_vec d)) = ps d.
  Proof. unfold ps. apply form_ext. intros q Hq. unfold pos_vec. rewrite entry_map_seq by exact Hq. reflexivity. Qed.

  Variable ranks : list rank_in.
  Hypothesis HS : Forall (shaped N n batch k ts) ranks.
  Lemma shaped_in r : In r ranks -> shaped N n batch k ts r.
  Proof. intros H. pose proof (proj1 (Forall_forall _ _) HS r H) as S. exact S. Qed.

  Lemma avg_samples (f : nat -> R) : average f (all_samples ranks) = average (fun r => average (fun l => average f l) (i_samples r)) ranks.
  Proof.
    unfold all_samples. rewrite (average_blocks f (fun r => concat (i_samples r)) ranks (n * batch)).
    - apply average_ext. intros r Hr. destruct (shaped_in r Hr) as (_ & F & _).
      rewrite <- flat_map_id. apply (average_blocks f (fun l => l) _ batch); [lia|].
      eapply Forall_impl; [|exact F]. intros l [E _]. exact E.
    - nia.
    - apply Forall_forall. intros r Hr. destruct (shaped_in r Hr) as (L & F & _). rewrite <- L.
      clear - F. induction F as [|l ls [E _] F IH]; [reflexivity|]. cbn [concat length]. rewrite app_length, IH, E. reflexivity.
  Qed.
  Lemma avg_drawn (f : nat * nat -> R) : average f (all_drawn ts bs ranks) = average (fun r => average (fun i => f (pick ts bs i)) (i_ind r)) ranks.
  Proof.
    unfold all_drawn. rewrite (average_blocks f (fun r => map (pick ts bs) (i_ind r)) ranks k).
    - apply average_ext. intros r _. apply average_map.
    - lia.
    - apply Forall_forall. intros r Hr. destruct (shaped_in r Hr) as (_ & _ & L & _). rewrite map_length. exact L.
  Qed.

  Hypothesis HA : forall d, In d (all_drawn ts bs ranks) -> cnorm2 (amp d) <> 0.
  Lemma in_drawn r i : In r ranks -> In i (i_ind r) -> In (pick ts bs i) (all_drawn ts bs ranks).
  Proof. intros Hr Hi. unfold all_drawn. apply in_flat_map. exists r. split; [exact Hr|]. apply in_map, Hi. Qed.

  Definition mean_pos : list cpx := mean_rows np (map (fun r => mean_rows np (map (fun i => pos_vec (pick ts bs i)) (i_ind r))) ranks).
  Definition mean_neg : list cpx := mean_rows np (map (fun r => mean_rows np (map neg_vec (i_samples r))) ranks).
  Definition grad : list cpx := map (fun q => rscal 2 (rsub cC (entry mean_neg q) (entry mean_pos q))) (seq 0 np).

  Lemma positives : sequence (map (positive m rots ts bs) ranks) =
    Ok (map (fun r => Some (mean_rows np (map (fun i => pos_vec (pick ts bs i)) (i_ind r)))) ranks).
  Proof.
    apply sequence_map. intros r Hr. apply positive_value; [apply shaped_in, Hr|].
    intros i Hi. apply HA, in_drawn with r; assumption.
  Qed.
  Lemma step_plain : step m rots ts bs batch None ranks = Ok (Some grad).
  Proof.
    unfold step. rewrite positives. cbn [bind]. fold np.
    rewrite (map_ext_in _ (fun r => Some (mean_rows np (map neg_vec (i_samples r))))).
    2:{ intros r Hr. apply negative_value, shaped_in, Hr. }
    unfold mean_opt at 1 2. rewrite !all_some_map. reflexivity.
  Qed.
  Lemma form_grad : form np v (entry grad) = 2 * (average gs (all_samples ranks) - average ps (all_drawn ts bs ranks)).
  Proof.
    rewrite (form_ext np v _ (fun q => rscal 2 (rsub cC (entry mean_neg q) (entry mean_pos q)))).
    2:{ intros q Hq. unfold grad. rewrite entry_map_seq by exact Hq. reflexivity. }
    rewrite form_scal. f_equal. rewrite form_sub. unfold mean_neg, mean_pos. rewrite !form_mean, !average_map. f_equal.
    - rewrite avg_samples. apply average_ext. intros r Hr. rewrite form_mean, average_map. apply average_ext. intros l Hl.
      apply form_neg. destruct (shaped_in r Hr) as (_ & F & _). rewrite Forall_forall in F. apply F, Hl.
    - rewrite avg_drawn. apply average_ext. intros r Hr. rewrite form_mean, average_map. apply average_ext. intros i _. apply form_pos.
  Qed.
  Lemma grad_length : length grad = np.
  Proof. unfold grad. rewrite map_length, seq_length. reflexivity. Qed.
End Step.

Section StepSR.
  Variables (N : nat) (U : nat -> nat -> nat -> cpx) (rots : list conn_of) (m : qmach) (ts bs : list nat).
  Hypothesis HR : rotations N U rots.
  Hypothesis HT : training_set N rots ts bs.
  Hypothesis HW : q_writes m = true.
  Variables (n batch k : nat).
  Hypotheses (Hn : (0 < n)%nat) (Hb : (0 < batch)%nat) (Hk : (0 < k)%nat).
  Variable ranks : list rank_in.
  Hypothesis HS : Forall (shaped N n batch k ts) ranks.
  Hypothesis HA : forall d, In d (all_drawn ts bs ranks) -> cnorm2 (measured N U (q_log m) d) <> 0.
  Let np := q_npar m.
  Lemma neg_sr : forall q, (q < np)%nat ->
    entry (map conj (mean_rows np (map (fun r => mean_rows np (jacobian m r)) ranks))) q = entry (mean_neg m batch ranks) q.
  Proof.
    set (w := mean_rows np (map (fun r => mean_rows np (jacobian m r)) ranks)).
    assert (Lw : length w = np) by (unfold w, mean_rows; rewrite map_length, seq_length; reflexivity).
    apply form_determines. intros v.
    rewrite (form_ext np v (entry (map conj w)) (fun q => conj (entry w q))).
    2:{ intros q Hq. unfold entry. rewrite (nth_indep _ _ (conj (0, 0))) by (rewrite map_length; lia). apply map_nth. }
    rewrite form_conj.
    assert (C : fst (fsum cC np (fun q => entry w q * v q)%C) = form np (fun q => conj (v q)) (entry w)).
    { unfold form. rewrite !fst_fsum. apply (fsum_ext rR). intros q _. cbn [cC rmul rconj fst snd]. match goal with |- ?a = ?b => change (@eq R a b) end. ring. }
    rewrite C. unfold w, mean_neg. fold np. rewrite !form_mean, !average_map. apply average_ext. intros r Hr.
    rewrite !form_mean, average_map. unfold jacobian. rewrite average_map.
    destruct (shaped_in N ts n batch k ranks HS r Hr) as (_ & F & _).
    rewrite <- flat_map_id, (average_blocks _ (fun l => l) _ batch).
    - apply average_ext. intros l Hl. rewrite Forall_forall in F.
      unfold np at 2. rewrite form_neg by (apply F, Hl). apply average_ext. intros s _.
      unfold gs, form. rewrite !fst_fsum. apply (fsum_ext rR). intros q _. cbn [cC rmul rconj fst snd]. match goal with |- ?a = ?b => change (@eq R a b) end. ring.
    - exact Hb.
    - eapply Forall_impl; [|exact F]. intros l [E _]. exact E.
  Qed.
  Lemma step_sr solve : step m rots ts bs batch (Some solve) ranks
    = Ok (solve (map (jacobian m) ranks) (Some (grad N U m ts bs batch ranks))).
  Proof.
    unfold step. rewrite (positives N U rots m ts bs HR HT HW n batch k Hn Hb Hk ranks HS HA). cbn [bind]. fold np.
    unfold mean_opt. rewrite all_some_map. cbn [option_map difference]. f_equal. f_equal. f_equal. unfold grad.
    apply map_ext_in. intros q Hq. apply in_seq in Hq. rewrite neg_sr by lia. reflexivity.
  Qed.
End StepSR.
