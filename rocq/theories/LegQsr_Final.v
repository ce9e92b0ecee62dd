From Coq Require Import List Arith ZArith Lia Bool Reals Lra.
From Verif Require Import Base Rings ARNN_Model ARNN_Proofs ToArray_Model Estim_Model Estim_Spec Estim_Proofs
  Balance_Spec Balance_Proofs LegQsr_Model LegQsr_Spec LegQsr_Proofs LegQsr_Step.
Import ListNotations.
Open Scope R_scope.

(** ** derivatives of averages *)
Lemma rsum_deriv {X} (f : X -> R -> R) (l : X -> R) t0 xs : (forall x, In x xs -> derivable_pt_lim (f x) t0 (l x)) ->
  derivable_pt_lim (fun t => rsum (fun x => f x t) xs) t0 (rsum l xs).
Proof.
  induction xs as [|x xs IH]; intros H; cbn [rsum]; [apply derivable_pt_lim_const|].
  apply (derivable_pt_lim_plus (f x) (fun t => rsum (fun x => f x t) xs)); [apply H; left; reflexivity|].
  apply IH. intros y Hy. apply H. right. exact Hy.
Qed.
Lemma dl_scal f c t0 l : derivable_pt_lim f t0 l -> derivable_pt_lim (fun t => f t / c) t0 (l / c).
Proof.
  intros D. apply (dl_ext (mult_real_fct (/ c) f)); [intros t; unfold mult_real_fct, Rdiv; ring|].
  eapply dl_eq; [apply derivable_pt_lim_scal, D|]. unfold Rdiv. ring.
Qed.
Lemma average_deriv {X} (f : X -> R -> R) (l : X -> R) t0 xs : (forall x, In x xs -> derivable_pt_lim (f x) t0 (l x)) ->
  derivable_pt_lim (fun t => average (fun x => f x t) xs) t0 (average l xs).
Proof. intros H. unfold average. apply dl_scal, rsum_deriv, H. Qed.
Lemma average_scal {X} c (f : X -> R) l : average (fun x => c * f x) l = c * average f l.
Proof. unfold average. rewrite rsum_scal. unfold Rdiv. ring. Qed.

Section Deriv.
  Variables (N : nat) (U : nat -> nat -> nat -> cpx) (rots : list conn_of) (m : qmach).
  Hypothesis HR : rotations N U rots.
  Variables (v : nat -> cpx) (lp : R -> nat -> cpx) (t0 : R).
  Hypothesis HM : moves N m v lp t0.
  Lemma sample_deriv s : (s < N)%nat ->
    derivable_pt_lim (fun t => ln (cnorm2 (psi_of (lp t) s))) t0 (2 * gs m v s).
  Proof.
    intros Hs. apply (dl_ext (mult_real_fct 2 (fun t => fst (lp t s)))).
    - intros t. unfold mult_real_fct. rewrite psi_is, cexp_norm, <- exp_plus, ln_exp. ring.
    - apply derivable_pt_lim_scal. exact (proj1 (proj2 HM s Hs)).
  Qed.
  Lemma drawn_deriv d conn : nth_error rots (snd d) = Some conn -> (fst d < N)%nat -> cnorm2 (measured N U (q_log m) d) <> 0 ->
    derivable_pt_lim (fun t => ln (cnorm2 (measured N U (lp t) d))) t0 (2 * ps N U m v d).
  Proof.
    intros Ec Hx HA. exact (measured_deriv N (U (snd d)) m (fst d) v lp t0 HM HA).
  Qed.
  Lemma norm_deriv' : derivable_pt_lim (fun t => norm2_of N (psi_of (lp t))) t0
    (rsum (fun s => 2 * gs m v s * cnorm2 (psi_of (q_log m) s)) (seq 0 N)).
  Proof.
    assert (E : forall psi, norm2_of N psi = rsum (fun s => cnorm2 (psi s)) (seq 0 N)).
    { intros psi. rewrite norm2_sum. clear. induction N as [|n IH]; [reflexivity|].
      rewrite seq_S, rsum_app. cbn [fsum rsum Nat.add]. rewrite IH. change (radd rR ?a ?b) with (a + b). ring. }
    apply (dl_ext (fun t => rsum (fun s => cnorm2 (psi_of (lp t) s)) (seq 0 N))); [intros t; symmetry; apply E|].
    apply (rsum_deriv (fun s t => cnorm2 (psi_of (lp t) s))). intros s Hs. apply in_seq in Hs. assert (Hs' : (s < N)%nat) by lia.
    apply (dl_ext (fun t => exp (2 * fst (lp t s)))).
    - intros t. rewrite psi_is, cexp_norm, <- exp_plus. f_equal. ring.
    - pose proof (derivable_pt_lim_scal _ 2 _ _ (proj1 (proj2 HM s Hs'))) as D.
      pose proof (derivable_pt_lim_comp _ exp t0 _ _ D (derivable_pt_lim_exp _)) as D2.
      eapply dl_eq; [exact D2|]. unfold mult_real_fct. rewrite (proj1 HM s Hs').
      rewrite psi_is, cexp_norm, <- exp_plus. unfold gs. replace (2 * fst (q_log m s)) with (fst (q_log m s) + fst (q_log m s)) by ring. ring.
  Qed.
  Hypothesis HN : (0 < N)%nat.
  Lemma born_mean : rsum (fun s => 2 * gs m v s * cnorm2 (psi_of (q_log m) s)) (seq 0 N) / norm2_of N (psi_of (q_log m))
    = 2 * rsum (fun s => born N (psi_of (q_log m)) s * gs m v s) (seq 0 N).
  Proof.
    unfold born, Rdiv. rewrite Rmult_comm, <- !rsum_scal. apply rsum_ext. intros s _. ring.
  Qed.
  Lemma norm_t0 : norm2_of N (psi_of (lp t0)) = norm2_of N (psi_of (q_log m)).
  Proof.
    unfold norm2_of. f_equal. apply fsum_ext. intros s Hs. rewrite !psi_is, (proj1 HM s Hs). reflexivity.
  Qed.
  Lemma measured_t0 d : measured N U (lp t0) d = measured N U (q_log m) d.
  Proof. exact (at_t0 N (U (snd d)) m (fst d) v lp t0 HM). Qed.
  Lemma chance_deriv d : cnorm2 (measured N U (q_log m) d) <> 0 ->
    derivable_pt_lim (fun t => ln (chance N U (lp t) d)) t0
      (2 * ps N U m v d - 2 * rsum (fun s => born N (psi_of (q_log m)) s * gs m v s) (seq 0 N)).
  Proof.
    intros HA. unfold chance.
    pose proof (norm2_pos N (lp t0) HN) as P. pose proof P as P'. rewrite norm_t0 in P'.
    assert (Pa : 0 < cnorm2 (measured N U (lp t0) d)) by (rewrite measured_t0; unfold cnorm2 in *; nra).
    destruct (amp_deriv N (U (snd d)) m (fst d) v lp t0 HM) as [D1 D2].
    pose proof (derivable_pt_lim_plus _ _ _ _ _ (derivable_pt_lim_mult _ _ _ _ _ D1 D1) (derivable_pt_lim_mult _ _ _ _ _ D2 D2)) as Dn.
    assert (P0 : norm2_of N (psi_of (lp t0)) <> 0) by lra.
    pose proof (derivable_pt_lim_div _ _ _ _ _ Dn norm_deriv' P0) as Dq.
    assert (Q : 0 < cnorm2 (measured N U (lp t0) d) / norm2_of N (psi_of (lp t0))) by (apply Rdiv_lt_0_compat; assumption).
    pose proof (derivable_pt_lim_comp _ ln t0 _ _ Dq (derivable_pt_lim_ln _ Q)) as Dl.
    eapply dl_eq; [exact Dl|]. rewrite <- born_mean.
    unfold ps. rewrite log_slope_form.
    unfold plus_fct, mult_fct, measured in *. rewrite norm_t0 in *.
    pose proof (measured_t0 d) as E0. unfold measured in E0. rewrite E0 in *.
    unfold cquot, cdiv. cbn [fst snd]. unfold cnorm2 in *. unfold Rsqr. field. split; lra.
  Qed.
End Deriv.

Section Gradient.
  Variables (N : nat) (U : nat -> nat -> nat -> cpx) (rots : list conn_of) (m : qmach) (ts bs : list nat).
  Hypothesis HR : rotations N U rots.
  Hypothesis HT : training_set N rots ts bs.
  Hypothesis HW : q_writes m = true.
  Variables (n batch k : nat).
  Hypotheses (Hn : (0 < n)%nat) (Hb : (0 < batch)%nat) (Hk : (0 < k)%nat).

  Lemma gradient_main ranks : Forall (shaped N n batch k ts) ranks ->
    (forall d, In d (all_drawn ts bs ranks) -> cnorm2 (measured N U (q_log m) d) <> 0) ->
    exists dp, step m rots ts bs batch None ranks = Ok (Some dp) /\ length dp = q_npar m /\
      (forall solve, step m rots ts bs batch (Some solve) ranks = Ok (solve (map (jacobian m) ranks) (Some dp))) /\
      forall v lp t0, moves N m v lp t0 ->
        derivable_pt_lim (fun t => average (fun s => ln (cnorm2 (psi_of (lp t) s))) (all_samples ranks)
          - average (fun d => ln (cnorm2 (measured N U (lp t) d))) (all_drawn ts bs ranks)) t0 (slope (q_npar m) dp v).
  Proof.
    intros HS HA. exists (grad N U m ts bs batch ranks). split; [|split; [|split]].
    - exact (step_plain N U rots m ts bs HR HT HW n batch k Hn Hb Hk ranks HS HA).
    - apply grad_length.
    - intros solve. exact (step_sr N U rots m ts bs HR HT HW n batch k Hn Hb Hk ranks HS HA solve).
    - intros v lp t0 HM. rewrite slope_form.
      rewrite (form_grad N U m ts bs n batch k Hn Hb Hk v ranks HS).
      rewrite Rmult_minus_distr_l, <- !average_scal.
      apply (derivable_pt_lim_minus (fun t => average (fun s => ln (cnorm2 (psi_of (lp t) s))) (all_samples ranks))
        (fun t => average (fun d => ln (cnorm2 (measured N U (lp t) d))) (all_drawn ts bs ranks))).
      + apply (average_deriv (fun s t => ln (cnorm2 (psi_of (lp t) s)))). intros s Hs. apply (sample_deriv N m v lp t0 HM).
        unfold all_samples in Hs. apply in_flat_map in Hs. destruct Hs as (r & Hr & Hs).
        rewrite Forall_forall in HS. destruct (HS r Hr) as (_ & F & _). apply in_concat in Hs. destruct Hs as (l & Hl & Hs).
        rewrite Forall_forall in F. destruct (F l Hl) as [_ G]. rewrite Forall_forall in G. apply G, Hs.
      + apply (average_deriv (fun d t => ln (cnorm2 (measured N U (lp t) d)))). intros d Hd.
        pose proof (HA d Hd) as Z. unfold all_drawn in Hd. apply in_flat_map in Hd. destruct Hd as (r & Hr & Hd).
        apply in_map_iff in Hd. destruct Hd as (i & <- & Hi). rewrite Forall_forall in HS.
        destruct (HS r Hr) as (_ & _ & _ & F & _). rewrite Forall_forall in F.
        destruct (drawn_ok N U rots m ts bs HR HT n batch k Hn Hb Hk i (F i Hi)) as (Hx & conn & Ec & _).
        exact (drawn_deriv N U rots m v lp t0 HM _ conn Ec Hx Z).
  Qed.

  (** ** averages over the random inputs *)
  Lemma expected_value {X} (O : list (R * X)) (h : X -> nat) (a : nat -> R) M : Forall (fun o => (h (snd o) < M)%nat) O ->
    rsum (fun o => fst o * a (h (snd o))) O = rsum (fun s => probability O (fun w => (h w =? s)%nat) * a s) (seq 0 M).
  Proof.
    intros F. unfold probability.
    rewrite (rsum_ext (fun s => _ * a s) (fun s => rsum (fun o => (if (h (snd o) =? s)%nat then fst o else 0) * a s) O)).
    2:{ intros s _. rewrite Rmult_comm, <- rsum_scal. apply rsum_ext. intros o _. ring. }
    rewrite rsum_swap. apply rsum_ext. intros o Ho. rewrite Forall_forall in F. specialize (F o Ho).
    rewrite (rsum_ext _ (fun s => (fst o * a s) * (if Nat.eq_dec s (h (snd o)) then 1 else 0))).
    - rewrite (rsum_delta Nat.eq_dec (fun s => fst o * a s)); [reflexivity|apply seq_NoDup|apply in_seq; lia].
    - intros s _. destruct (Nat.eqb_spec (h (snd o)) s), (Nat.eq_dec s (h (snd o))); subst; try contradiction; try ring; congruence.
  Qed.
  Lemma rsum_weighted_average {X Y} (O : list (R * X)) (f : Y -> X -> R) l :
    rsum (fun o => fst o * average (fun y => f y (snd o)) l) O = average (fun y => rsum (fun o => fst o * f y (snd o)) O) l.
  Proof.
    unfold average. rewrite (rsum_ext _ (fun o => / INR (length l) * rsum (fun y => fst o * f y (snd o)) l)).
    - rewrite rsum_scal, rsum_swap. unfold Rdiv. ring.
    - intros o _. rewrite rsum_scal. unfold Rdiv. ring.
  Qed.
  Lemma average_cst {X} c (l : list X) : l <> [] -> average (fun _ => c) l = c.
  Proof.
    intros H. unfold average. rewrite rsum_cst. assert (INR (length l) <> 0) by (apply not_0_INR; destruct l; [contradiction|discriminate]).
    field. assumption.
  Qed.
  Lemma average_nth {X} (f : X -> R) l d : average f l = average (fun i => f (nth i l d)) (seq 0 (length l)).
  Proof. unfold average. rewrite (rsum_nth f l d), seq_length. reflexivity. Qed.

  Variables (nodes : nat) (O : list (R * list rank_in)).
  Hypothesis Hnodes : (0 < nodes)%nat.
  Hypothesis HS : Forall (fun o => length (snd o) = nodes /\ Forall (shaped N n batch k ts) (snd o)) O.
  Hypothesis HP : sampled N nodes n batch k ts (q_log m) O.

  Lemma samples_index (f : nat -> R) w : length w = nodes -> Forall (shaped N n batch k ts) w ->
    average f (all_samples w) = average (fun r => average (fun i => average (fun j => f (sample_at r i j w)) (seq 0 batch)) (seq 0 n)) (seq 0 nodes).
  Proof.
    intros L F. rewrite (avg_samples N m ts n batch k Hn Hb Hk w F). rewrite (average_nth _ w no_rank), L.
    apply average_ext. intros r Hr. apply in_seq in Hr.
    assert (S : shaped N n batch k ts (nth r w no_rank)). { rewrite Forall_forall in F. apply F, nth_In. lia. }
    destruct S as (Ln & Fl & _). rewrite (average_nth _ (i_samples (nth r w no_rank)) []), Ln.
    apply average_ext. intros i Hi. apply in_seq in Hi. rewrite (average_nth f _ 0%nat).
    assert (Li : length (nth i (i_samples (nth r w no_rank)) []) = batch). { rewrite Forall_forall in Fl. apply Fl, nth_In. lia. }
    rewrite Li. reflexivity.
  Qed.
  Lemma drawn_index (f : nat * nat -> R) w : length w = nodes -> Forall (shaped N n batch k ts) w ->
    average f (all_drawn ts bs w) = average (fun r => average (fun i => f (pick ts bs (drawn_at r i w))) (seq 0 k)) (seq 0 nodes).
  Proof.
    intros L F. rewrite (avg_drawn N m ts bs n batch k Hn Hb Hk w F). rewrite (average_nth _ w no_rank), L.
    apply average_ext. intros r Hr. apply in_seq in Hr.
    assert (S : shaped N n batch k ts (nth r w no_rank)). { rewrite Forall_forall in F. apply F, nth_In. lia. }
    destruct S as (_ & _ & Lk & _). rewrite (average_nth _ (i_ind (nth r w no_rank)) 0%nat), Lk. reflexivity.
  Qed.
  Lemma seq_ne c : (0 < c)%nat -> seq 0 c <> [].
  Proof. destruct c; [lia|discriminate]. Qed.
  Lemma sample_lt o r i j : In o O -> (r < nodes)%nat -> (i < n)%nat -> (j < batch)%nat -> (sample_at r i j (snd o) < N)%nat.
  Proof.
    intros Ho Hr Hi Hj. rewrite Forall_forall in HS. destruct (HS o Ho) as [L F]. rewrite Forall_forall in F.
    destruct (F (nth r (snd o) no_rank)) as (Ln & Fl & _); [apply nth_In; lia|].
    unfold sample_at. rewrite Forall_forall in Fl. destruct (Fl (nth i (i_samples (nth r (snd o) no_rank)) [])) as [Lb G]; [apply nth_In; lia|].
    rewrite Forall_forall in G. apply G, nth_In. lia.
  Qed.
  Lemma drawn_lt o r i : In o O -> (r < nodes)%nat -> (i < k)%nat -> (drawn_at r i (snd o) < length ts)%nat.
  Proof.
    intros Ho Hr Hi. rewrite Forall_forall in HS. destruct (HS o Ho) as [L F]. rewrite Forall_forall in F.
    destruct (F (nth r (snd o) no_rank)) as (_ & _ & Lk & Fi & _); [apply nth_In; lia|].
    unfold drawn_at. rewrite Forall_forall in Fi. apply Fi, nth_In. lia.
  Qed.
  Lemma expected_samples (f : nat -> R) : rsum (fun o => fst o * average f (all_samples (snd o))) O
    = rsum (fun s => born N (psi_of (q_log m)) s * f s) (seq 0 N).
  Proof.
    rewrite (rsum_ext _ (fun o => fst o * average (fun r => average (fun i => average (fun j => f (sample_at r i j (snd o))) (seq 0 batch)) (seq 0 n)) (seq 0 nodes))).
    2:{ intros o Ho. rewrite Forall_forall in HS. destruct (HS o Ho) as [L F]. rewrite samples_index by assumption. reflexivity. }
    rewrite (rsum_weighted_average O (fun r w => average (fun i => average (fun j => f (sample_at r i j w)) (seq 0 batch)) (seq 0 n))).
    rewrite (average_ext _ (fun _ => rsum (fun s => born N (psi_of (q_log m)) s * f s) (seq 0 N))); [apply average_cst, seq_ne, Hnodes|].
    intros r Hr. apply in_seq in Hr.
    rewrite (rsum_weighted_average O (fun i w => average (fun j => f (sample_at r i j w)) (seq 0 batch))).
    rewrite (average_ext _ (fun _ => rsum (fun s => born N (psi_of (q_log m)) s * f s) (seq 0 N))); [apply average_cst, seq_ne, Hn|].
    intros i Hi. apply in_seq in Hi. rewrite (rsum_weighted_average O (fun j w => f (sample_at r i j w))).
    rewrite (average_ext _ (fun _ => rsum (fun s => born N (psi_of (q_log m)) s * f s) (seq 0 N))); [apply average_cst, seq_ne, Hb|].
    intros j Hj. apply in_seq in Hj. rewrite (expected_value O (sample_at r i j) f N).
    - apply rsum_ext. intros s Hs. apply in_seq in Hs. rewrite (proj1 HP) by lia. reflexivity.
    - apply Forall_forall. intros o Ho. apply sample_lt; [exact Ho|lia..].
  Qed.
  Lemma combine_picks : combine ts bs = map (pick ts bs) (seq 0 (length ts)).
  Proof.
    destruct HT as (E & _). clear - E. revert bs E. induction ts as [|t l IH]; intros [|b bs'] E; try discriminate; [reflexivity|].
    cbn [combine length seq map]. unfold pick at 1. cbn [nth]. f_equal. rewrite IH by (injection E; auto).
    rewrite <- seq_shift, map_map. reflexivity.
  Qed.
  Lemma expected_drawn (f : nat * nat -> R) : ts <> [] -> rsum (fun o => fst o * average f (all_drawn ts bs (snd o))) O
    = average f (combine ts bs).
  Proof.
    intros Hts. rewrite combine_picks, average_map.
    rewrite (rsum_ext _ (fun o => fst o * average (fun r => average (fun i => f (pick ts bs (drawn_at r i (snd o)))) (seq 0 k)) (seq 0 nodes))).
    2:{ intros o Ho. rewrite Forall_forall in HS. destruct (HS o Ho) as [L F]. rewrite drawn_index by assumption. reflexivity. }
    rewrite (rsum_weighted_average O (fun r w => average (fun i => f (pick ts bs (drawn_at r i w))) (seq 0 k))).
    set (V := average (fun i => f (pick ts bs i)) (seq 0 (length ts))).
    rewrite (average_ext _ (fun _ => V)); [apply average_cst, seq_ne, Hnodes|].
    intros r Hr. apply in_seq in Hr.
    rewrite (rsum_weighted_average O (fun i w => f (pick ts bs (drawn_at r i w)))).
    rewrite (average_ext _ (fun _ => V)); [apply average_cst, seq_ne, Hk|].
    intros i Hi. apply in_seq in Hi. rewrite (expected_value O (drawn_at r i) (fun q => f (pick ts bs q)) (length ts)).
    - unfold V, average. rewrite seq_length.
      rewrite (rsum_ext _ (fun q => / INR (length ts) * f (pick ts bs q))); [rewrite rsum_scal; unfold Rdiv; ring|].
      intros q Hq. apply in_seq in Hq. rewrite (proj2 HP) by lia. reflexivity.
    - apply Forall_forall. intros o Ho. apply drawn_lt; [exact Ho|lia..].
  Qed.
  Lemma slope_mean (f : list rank_in -> list cpx) v :
    slope (q_npar m) (mean_of_vectors (q_npar m) O f) v = rsum (fun o => fst o * slope (q_npar m) (f (snd o)) v) O.
  Proof.
    rewrite slope_form.
    rewrite (form_ext (q_npar m) v _ (fun q => lsum cC (map (fun o => rscal (fst o) (entry (f (snd o)) q)) O))).
    - rewrite (form_lsum (q_npar m) v (fun o q => rscal (fst o) (entry (f (snd o)) q))). apply rsum_ext. intros o _.
      rewrite form_scal. reflexivity.
    - intros q Hq. unfold mean_of_vectors. rewrite entry_map_seq by exact Hq. clear.
      induction O as [|o l IH]; cbn [map lsum rsum]; [reflexivity|]. rewrite <- IH. unfold rscal. cpx; cbn [fst snd]; ring.
  Qed.

  Hypothesis HN : (0 < N)%nat.
  Hypothesis HO : weights O.
  Hypothesis Hts : ts <> [].
  Hypothesis HA : forall d, In d (combine ts bs) -> cnorm2 (measured N U (q_log m) d) <> 0.

  Lemma drawn_training w d : Forall (shaped N n batch k ts) w -> In d (all_drawn ts bs w) -> In d (combine ts bs).
  Proof.
    intros F Hd. unfold all_drawn in Hd. apply in_flat_map in Hd. destruct Hd as (r & Hr & Hd).
    apply in_map_iff in Hd. destruct Hd as (i & <- & Hi). rewrite Forall_forall in F.
    destruct (F r Hr) as (_ & _ & _ & G & _). rewrite Forall_forall in G. rewrite combine_picks. apply in_map, in_seq.
    specialize (G i Hi). lia.
  Qed.
  Lemma unbiased_main : exists f,
    (forall o, In o O -> step m rots ts bs batch None (snd o) = Ok (Some (f (snd o)))) /\
    forall v lp t0, moves N m v lp t0 ->
      derivable_pt_lim (fun t => neg_log_likelihood N U (lp t) (combine ts bs)) t0
        (slope (q_npar m) (mean_of_vectors (q_npar m) O f) v).
  Proof.
    exists (grad N U m ts bs batch). split.
    - intros o Ho. pose proof HS as HS'. rewrite Forall_forall in HS'. destruct (HS' o Ho) as [L F].
      apply (step_plain N U rots m ts bs HR HT HW n batch k Hn Hb Hk); [exact F|].
      intros d Hd. apply HA. apply (drawn_training (snd o)); assumption.
    - intros v lp t0 HM. rewrite slope_mean.
      rewrite (rsum_ext _ (fun o => 2 * (fst o * average (gs m v) (all_samples (snd o))) - 2 * (fst o * average (ps N U m v) (all_drawn ts bs (snd o))))).
      2:{ intros o Ho. pose proof HS as HS'. rewrite Forall_forall in HS'. destruct (HS' o Ho) as [L F].
          rewrite slope_form, (form_grad N U m ts bs n batch k Hn Hb Hk v (snd o) F). ring. }
      rewrite rsum_minus, !rsum_scal, expected_samples, expected_drawn by exact Hts.
      unfold neg_log_likelihood.
      apply (dl_ext (opp_fct (fun t => average (fun d => ln (chance N U (lp t) d)) (combine ts bs)))); [reflexivity|].
      eapply dl_eq; [apply derivable_pt_lim_opp, (average_deriv (fun d t => ln (chance N U (lp t) d)));
        intros d Hd; apply (chance_deriv N U m v lp t0 HM HN d (HA d Hd))|].
      set (B := rsum (fun s => born N (psi_of (q_log m)) s * gs m v s) (seq 0 N)).
      unfold average at 1. rewrite rsum_minus, rsum_scal, rsum_cst. unfold average.
      assert (Z : INR (length (combine ts bs)) <> 0).
      { apply not_0_INR. rewrite combine_picks, map_length, seq_length. destruct ts; [contradiction|discriminate]. }
      field. exact Z.
  Qed.
End Gradient.
