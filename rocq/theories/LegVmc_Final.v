From Coq Require Import List Arith ZArith Lia Bool Reals Lra.
From Verif Require Import Base Rings ARNN_Model ARNN_Proofs ToArray_Model Estim_Model Estim_Spec Estim_Proofs
  Balance_Spec Balance_Proofs LegQsr_Model LegQsr_Spec LegQsr_Proofs LegQsr_Step LegQsr_Final LegQsr_Nll
  LegVmc_Model LegVmc_Spec LegVmc_Proofs LegVmc_Mean LegVmc_Random.
Import ListNotations.
Open Scope R_scope.

Lemma cdiv_mul a b : cnorm2 b <> 0 -> cdiv (a * b)%C b = a.
Proof. intros H. exact (cquot_unique (a * b)%C b a H eq_refl). Qed.
Lemma psi_nz lp s : cnorm2 (psi_of lp s) <> 0.
Proof. pose proof (psi_pos lp s). lra. Qed.
Lemma caverage_ext f g l : (forall s, In s l -> f s = g s) -> caverage f l = caverage g l.
Proof. intros H. unfold caverage. f_equal; apply average_ext; intros s Hs; rewrite H by exact Hs; reflexivity. Qed.
Lemma covariance_ext a b c d l : (forall s, In s l -> a s = c s) -> (forall s, In s l -> b s = d s) -> covariance a b l = covariance c d l.
Proof.
  intros H1 H2. unfold covariance. rewrite (caverage_ext a c l H1), (caverage_ext b d l H2).
  rewrite (caverage_ext (fun s => conj (a s) * b s)%C (fun s => conj (c s) * d s)%C l); [reflexivity|].
  intros s Hs. rewrite H1, H2 by exact Hs. reflexivity.
Qed.

Section Main.
  Variables (N : nat) (O : nat -> nat -> cpx) (conn : conn_of) (m : qmach) (n batch : nat).
  Hypothesis HC : describes N O conn.
  Hypotheses (Hn : (0 < n)%nat) (Hb : (0 < batch)%nat).
  Notation np := (q_npar m).
  Notation D := (fun k s => entry (q_der m s) k).
  Notation El := (fun s => local_value (q_log m) s (conn s)).
  Notation Lo := (local_of N O (q_log m)).
  Lemma local_eq s : (s < N)%nat -> El s = Lo s.
  Proof.
    intros Hs. unfold local_of. rewrite <- (local_value_main N O conn (q_log m) s HC Hs). symmetry. apply cdiv_mul, psi_nz.
  Qed.
  Lemma derivative_eq k s : (s < N)%nat -> der_local m conn s k = local_derivative N O m k s.
  Proof.
    intros Hs. unfold local_derivative. rewrite <- (der_local_main N O conn m HC k s Hs). symmetry. apply cdiv_mul, psi_nz.
  Qed.
  Lemma in_range ranks s : Forall (shape N n batch) ranks -> In s (all_of ranks) -> (s < N)%nat.
  Proof. intros F Hs. pose proof (all_lt N n batch ranks F) as G. rewrite Forall_forall in G. exact (G s Hs). Qed.

  Lemma vmc_grads ranks sr cplx : Forall (shape N n batch) ranks -> ranks <> [] ->
    let d := map (fun k => covariance (D k) Lo (all_of ranks)) (seq 0 np) in
    vmc_step m cplx conn (length ranks * n * batch) sr ranks
    = StepOut (caverage Lo (all_of ranks))
        match sr with
        | NoSR => if cplx then d else real_part d
        | FromJacobian solve => solve (map (fun r => map (q_der m) (concat r)) ranks) d
        | OnTheFly solve => solve (map (@concat nat) ranks) d
        end.
  Proof.
    intros F Hr d. unfold vmc_step. rewrite (mean_local N n batch m conn Hn Hb ranks F).
    pose proof (grads_covariance N n batch m conn Hn Hb (length ranks * n * batch) ranks F Hr (eq_sym (all_length N n batch Hn Hb ranks F))) as G.
    assert (E : map (fun k => covariance (D k) El (all_of ranks)) (seq 0 np) = d).
    { apply map_ext. intros k. apply covariance_ext; [reflexivity|]. intros s Hs. apply local_eq, (in_range ranks s F Hs). }
    apply (fun G => eq_trans G E) in G.
    assert (Ec : caverage El (all_of ranks) = caverage Lo (all_of ranks)) by (apply caverage_ext; intros s Hs; apply local_eq, (in_range ranks s F Hs)).
    cbv zeta. rewrite G, Ec. reflexivity.
  Qed.
  Lemma slope_average (h : nat -> nat -> cpx) (q : nat -> cpx) (v : nat -> cpx) l :
    form np v (fun k => caverage (fun s => conj (h k s) * q s)%C l)
    = average (fun s => fst (fsum cC np (fun k => h k s * v k)%C) * fst (q s) + snd (fsum cC np (fun k => h k s * v k)%C) * snd (q s)) l.
  Proof.
    rewrite (form_caverage m v (fun k s => conj (h k s) * q s)%C). apply average_ext. intros s _.
    rewrite (form_conj_mul m v (fun k => h k s)). cbn [cC rmul rconj fst snd]. ring.
  Qed.
  Lemma steady_main ranks sr cplx : Forall (shape N n batch) ranks ->
    let l := all_of ranks in
    let mean_square := (average (fun s => cnorm2 (Lo s)) l, 0) in
    let d := map (fun k => rsub cC (caverage (fun s => rmul cC (rconj cC (local_derivative N O m k s)) (Lo s)) l)
        (rmul cC (rconj cC (caverage (D k) l)) mean_square)) (seq 0 np) in
    steady_step m cplx conn sr ranks
    = StepOut mean_square
        match sr with
        | None => if cplx then d else real_part d
        | Some solve => solve (map (fun r => map (fun s => map (fun k => rsub cC (D k s) (caverage (D k) l)) (seq 0 np)) (concat r)) ranks) d
        end.
  Proof.
    intros F l mean_square d. unfold steady_step. pose proof (steady_grads N n batch m conn Hn Hb ranks F) as G.
    assert (L : mean_all (map (map (fun z : cpx => (cnorm2 z, 0))) (map (local_values m conn) ranks)) = mean_square).
    { rewrite map_map. rewrite (map_ext _ (fun r => map (fun s => (cnorm2 (El s), 0)) (concat r))).
      2:{ intros r. unfold local_values. rewrite map_map. reflexivity. }
      etransitivity; [exact (mean_all_average N n batch Hn Hb (fun s => (cnorm2 (El s), 0)) ranks F)|].
      unfold caverage, mean_square. fold l. cbn [fst snd]. f_equal.
      - apply average_ext. intros s Hs. rewrite local_eq by exact (in_range ranks s F Hs). reflexivity.
      - unfold average. rewrite rsum_cst. unfold Rdiv. ring. }
    assert (E : map (fun k => (caverage (fun s => conj (der_local m conn s k) * El s) (all_of ranks)
        - conj (caverage (D k) (all_of ranks)) * caverage (fun s => (cnorm2 (El s), 0)) (all_of ranks))%C) (seq 0 np) = d).
    { apply map_ext. intros k. fold l. f_equal.
      - apply caverage_ext. intros s Hs. rewrite derivative_eq, local_eq by exact (in_range ranks s F Hs). reflexivity.
      - f_equal. unfold caverage, mean_square. cbn [fst snd]. f_equal.
        + apply average_ext. intros s Hs. rewrite local_eq by exact (in_range ranks s F Hs). reflexivity.
        + unfold average. rewrite rsum_cst. unfold Rdiv. ring. }
    apply (fun G => eq_trans G E) in G. cbv zeta. rewrite G. refine (f_equal2 StepOut L _). destruct sr as [solve|]; [|reflexivity]. f_equal.
    apply map_ext. intros r. apply map_ext. intros s. apply map_ext_in. intros k Hk. apply in_seq in Hk.
    rewrite (entry_map_seq (fun k => mean_all (map (fun r => map (fun s => entry (q_der m s) k) (concat r)) ranks)) np k) by lia.
    rewrite (mean_all_average N n batch Hn Hb (D k) ranks F). reflexivity.
  Qed.

  (** ** derivatives *)
  Variables (v : nat -> cpx) (lp : R -> nat -> cpx) (t0 : R) (cplx : bool).
  Hypothesis HN : (0 < N)%nat.
  Hypothesis HM : moves N m v lp t0.
  Hypothesis HD : direction cplx v.
  Notation g := (velocity m v).
  Notation bm := (born_mean N (q_log m)).
  Lemma bm_ext f h : (forall s, (s < N)%nat -> f s = h s) -> bm f = bm h.
  Proof. intros H. unfold born_mean. apply rsum_ext. intros s Hs. apply in_seq in Hs. rewrite H by lia. reflexivity. Qed.
  Lemma vmc_slope ranks : Forall (shape N n batch) ranks -> ranks <> [] ->
    slope np (o_dp (vmc_step m cplx conn (length ranks * n * batch) NoSR ranks)) v
    = rcov (fun s => fst (g s)) (fun s => fst (Lo s)) (all_of ranks) + rcov (fun s => snd (g s)) (fun s => snd (Lo s)) (all_of ranks).
  Proof.
    intros F Hr. rewrite (vmc_grads ranks NoSR cplx F Hr). cbn [o_dp]. rewrite slope_direction by exact HD. apply slope_covariance.
  Qed.
  Lemma energy_rate : hermitian N O ->
    derivable_pt_lim (fun t => fst (expectation N O (psi_of (lp t)))) t0
      (2 * ((bm (fun s => fst (g s) * fst (Lo s)) - bm (fun s => fst (g s)) * bm (fun s => fst (Lo s)))
          + (bm (fun s => snd (g s) * snd (Lo s)) - bm (fun s => snd (g s)) * bm (fun s => snd (Lo s))))).
  Proof.
    intros HO. eapply dl_eq; [exact (energy_derivative N O conn m v lp t0 HN HC HM HO)|].
    repeat match goal with |- ?x = ?x => reflexivity | |- born_mean _ _ _ = born_mean _ _ _ => apply bm_ext; intros s Hs; cbv beta; rewrite ?(local_eq s Hs); reflexivity | |- _ => f_equal end.
  Qed.
  Lemma vmc_exact ranks : hermitian N O -> Forall (shape N n batch) ranks -> ranks <> [] ->
    (forall s, (s < N)%nat -> fraction (all_of ranks) s = born N (psi_of (q_log m)) s) ->
    derivable_pt_lim (fun t => fst (expectation N O (psi_of (lp t)))) t0
      (2 * slope np (o_dp (vmc_step m cplx conn (length ranks * n * batch) NoSR ranks)) v).
  Proof.
    intros HO F Hr Hf. eapply dl_eq; [exact (energy_rate HO)|]. rewrite (vmc_slope ranks F Hr). unfold rcov.
    rewrite !(average_exact _ N (q_log m) (all_of ranks) (all_lt N n batch ranks F) Hf). reflexivity.
  Qed.
  Lemma steady_slope ranks : Forall (shape N n batch) ranks ->
    slope np (o_dp (steady_step m cplx conn None ranks)) v
    = average (fun s => fst (dv conn m v s) * fst (Lo s) + snd (dv conn m v s) * snd (Lo s)) (all_of ranks)
      - average (fun s => fst (g s)) (all_of ranks) * average (fun s => cnorm2 (Lo s)) (all_of ranks).
  Proof.
    intros F. rewrite (steady_main ranks None cplx F). cbn [o_dp]. rewrite slope_direction by exact HD.
    rewrite slope_form.
    set (ms := (average (fun s => cnorm2 (Lo s)) (all_of ranks), 0)).
    rewrite (form_ext np v _ (fun k => caverage (fun s => conj (der_local m conn s k) * Lo s) (all_of ranks)
       - conj (caverage (D k) (all_of ranks)) * ms)%C).
    2:{ intros k Hk. rewrite (entry_map_seq (fun k => rsub cC (caverage (fun s => rmul cC (rconj cC (local_derivative N O m k s)) (Lo s)) (all_of ranks)) (rmul cC (rconj cC (caverage (D k) (all_of ranks))) ms))) by exact Hk.
        f_equal. apply caverage_ext. intros s Hs. rewrite derivative_eq by exact (in_range ranks s F Hs). reflexivity. }
    rewrite (form_sub np v (fun k => caverage (fun s => conj (der_local m conn s k) * Lo s)%C (all_of ranks)) (fun k => conj (caverage (D k) (all_of ranks)) * ms)%C).
    rewrite (slope_average (fun k s => der_local m conn s k) Lo v), (form_average m v ms (all_of ranks)).
    unfold ms. cbn [fst snd]. unfold dv. ring.
  Qed.
  Lemma square_rate :
    derivable_pt_lim (fun t => fst (expectation N (dagger_times N O) (psi_of (lp t)))) t0
      (2 * (bm (fun s => fst (dv conn m v s) * fst (Lo s) + snd (dv conn m v s) * snd (Lo s)) - bm (fun s => fst (g s)) * bm (fun s => cnorm2 (Lo s)))).
  Proof.
    eapply dl_eq; [exact (square_derivative N O conn m v lp t0 HN HC HM)|].
    repeat match goal with |- ?x = ?x => reflexivity | |- born_mean _ _ _ = born_mean _ _ _ => apply bm_ext; intros s Hs; cbv beta; rewrite ?(local_eq s Hs); reflexivity | |- _ => f_equal end.
  Qed.
  Lemma steady_exact ranks : Forall (shape N n batch) ranks ->
    (forall s, (s < N)%nat -> fraction (all_of ranks) s = born N (psi_of (q_log m)) s) ->
    derivable_pt_lim (fun t => fst (expectation N (dagger_times N O) (psi_of (lp t)))) t0
      (2 * slope np (o_dp (steady_step m cplx conn None ranks)) v).
  Proof.
    intros F Hf. eapply dl_eq; [exact square_rate|]. rewrite (steady_slope ranks F).
    rewrite !(average_exact _ N (q_log m) (all_of ranks) (all_lt N n batch ranks F) Hf). reflexivity.
  Qed.

  (** ** independent samples *)
  Variables (nodes : nat) (Om : list (R * list batches)).
  Hypothesis Hnodes : (0 < nodes)%nat.
  Hypothesis HS : Forall (fun o => length (snd o) = nodes /\ Forall (shape N n batch) (snd o)) Om.
  Hypothesis HI : independent N (nodes * n * batch) (q_log m) Om.
  Notation total := (nodes * n * batch)%nat.
  Lemma outcomes_ok : Forall (fun o => length (all_of (snd o)) = total /\ Forall (fun s => (s < N)%nat) (all_of (snd o))) Om.
  Proof.
    eapply Forall_impl; [|exact HS]. intros o [L F]. cbv beta. split; [|exact (all_lt N n batch (snd o) F)].
    rewrite (all_length N n batch Hn Hb (snd o) F), L. reflexivity.
  Qed.
  Lemma slope_mean' (f : list batches -> list cpx) :
    slope np (mean_of_vectors np Om f) v = rsum (fun o => fst o * slope np (f (snd o)) v) Om.
  Proof.
    rewrite slope_form.
    rewrite (form_ext np v _ (fun q => lsum cC (map (fun o => rscal (fst o) (entry (f (snd o)) q)) Om))).
    - rewrite (form_lsum np v (fun o q => rscal (fst o) (entry (f (snd o)) q))). apply rsum_ext. intros o _.
      rewrite form_scal. reflexivity.
    - intros q Hq. unfold mean_of_vectors. rewrite entry_map_seq by exact Hq. clear.
      induction Om as [|o l IH]; cbn [map lsum rsum]; [reflexivity|]. rewrite <- IH. unfold rscal. cpx; cbn [fst snd]; ring.
  Qed.
  Lemma total_pos : (0 < total)%nat.
  Proof. nia. Qed.
  Lemma vmc_mean : slope np (mean_of_vectors np Om (fun w => o_dp (vmc_step m cplx conn total NoSR w))) v
    = (1 - / INR total) * ((bm (fun s => fst (g s) * fst (Lo s)) - bm (fun s => fst (g s)) * bm (fun s => fst (Lo s)))
          + (bm (fun s => snd (g s) * snd (Lo s)) - bm (fun s => snd (g s)) * bm (fun s => snd (Lo s)))).
  Proof.
    rewrite slope_mean'.
    rewrite (rsum_ext _ (fun o => fst o * rcov (fun s => fst (g s)) (fun s => fst (Lo s)) (all_of (snd o))
       + fst o * rcov (fun s => snd (g s)) (fun s => snd (Lo s)) (all_of (snd o)))).
    - rewrite rsum_plus, !(expected_rcov N total (q_log m) Om total_pos outcomes_ok HI). ring.
    - intros o Ho. rewrite Forall_forall in HS. destruct (HS o Ho) as [L F]. rewrite <- L.
      rewrite vmc_slope; [ring|exact F|]. intros E0. rewrite E0 in L. cbn in L. lia.
  Qed.
  Lemma vmc_unbiased : hermitian N O -> (1 < total)%nat ->
    derivable_pt_lim (fun t => fst (expectation N O (psi_of (lp t)))) t0
      (2 * (INR total / (INR total - 1)) * slope np (mean_of_vectors np Om (fun w => o_dp (vmc_step m cplx conn total NoSR w))) v).
  Proof.
    intros HO Ht. eapply dl_eq; [exact (energy_rate HO)|]. rewrite vmc_mean.
    assert (1 < INR total) by (change 1 with (INR 1); apply lt_INR; exact Ht). field. lra.
  Qed.
  Lemma steady_bias :
    derivable_pt_lim (fun t => fst (expectation N (dagger_times N O) (psi_of (lp t)))) t0
      (2 * (slope np (mean_of_vectors np Om (fun w => o_dp (steady_step m cplx conn None w))) v
        + (bm (fun s => fst (g s) * cnorm2 (Lo s)) - bm (fun s => fst (g s)) * bm (fun s => cnorm2 (Lo s))) / INR total)).
  Proof.
    eapply dl_eq; [exact square_rate|]. rewrite slope_mean'.
    rewrite (rsum_ext _ (fun o => fst o * average (fun s => fst (dv conn m v s) * fst (Lo s) + snd (dv conn m v s) * snd (Lo s)) (all_of (snd o))
      - fst o * (average (fun s => fst (g s)) (all_of (snd o)) * average (fun s => cnorm2 (Lo s)) (all_of (snd o))))).
    2:{ intros o Ho. rewrite Forall_forall in HS. destruct (HS o Ho) as [L F]. rewrite steady_slope by exact F. ring. }
    rewrite rsum_minus, (expected_average N total (q_log m) Om total_pos outcomes_ok HI), (expected_product N total (q_log m) Om total_pos outcomes_ok HI).
    ring.
  Qed.
End Main.
