(** * Proofs about the Metropolis samplers *)
From Coq Require Import List ZArith Bool Lia QArith.
From Verif Require Import Base Metro_Model Metro_Spec.
Import ListNotations.
Open Scope nat_scope.

Lemma where_length {A} (b : list bool) (x y : list A) n :
  length b = n -> length x = n -> length y = n -> length (where_ b x y) = n.
Proof. intros. unfold where_. rewrite map_length, !combine_length. lia. Qed.

Lemma where_map {A B} (f : A -> B) b : forall x y,
  where_ b (map f x) (map f y) = map f (where_ b x y).
Proof.
  induction b as [|c b IH]; intros x y; [reflexivity|].
  destruct x as [|u x]; [reflexivity|]. destruct y as [|v y]; [reflexivity|].
  unfold where_ in *. cbn. rewrite IH. destruct c; reflexivity.
Qed.

Lemma where_Forall {A} (P : A -> Prop) b : forall x y,
  Forall P x -> Forall P y -> Forall P (where_ b x y).
Proof.
  induction b as [|c b IH]; intros x y Hx Hy; [constructor|].
  destruct Hx as [|u x Hu Hx]; [constructor|]. destruct Hy as [|v y Hv Hy]; [constructor|].
  unfold where_ in *. cbn. constructor; [destruct c; assumption|]. apply IH; assumption.
Qed.

Lemma count_le b : count b <= length b.
Proof. unfold count. induction b as [|[] b IH]; cbn; lia. Qed.

Lemma count_app a b : count (a ++ b) = count a + count b.
Proof. unfold count. rewrite filter_app, app_length. reflexivity. Qed.

Lemma list_ext {A} (d : A) (x y : list A) :
  length x = length y -> (forall i, i < length x -> nth i x d = nth i y d) -> x = y.
Proof. intros. apply (nth_ext _ _ d d); assumption. Qed.

Lemma where_nth {A} (d : A) b : forall x y i,
  i < length b -> length x = length b -> length y = length b ->
  nth i (where_ b x y) d = if nth i b false then nth i x d else nth i y d.
Proof.
  induction b as [|c b IH]; intros x y i Hi Hx Hy; [cbn in Hi; lia|].
  destruct x as [|u x]; [discriminate|]. destruct y as [|v y]; [discriminate|].
  destruct i as [|i]; [destruct c; reflexivity|].
  unfold where_ in *. cbn. apply IH; cbn in *; lia.
Qed.

Section P.
  Context {Cfg Par R Key RS : Type}.
  Variable M : metro Cfg Par R Key RS.
  Hypothesis Hsh : shapes_ok M.

  Lemma accept_length u lp' lp corr n :
    length u = n -> length lp' = n -> length lp = n ->
    (forall c, corr = Some c -> length c = n) ->
    length (do_accept M u lp' lp corr) = n.
  Proof.
    intros Hu Hlp' Hlp Hc. unfold do_accept. destruct corr as [c|].
    - specialize (Hc c eq_refl). rewrite map_length, !combine_length. lia.
    - rewrite map_length, !combine_length. lia.
  Qed.

  Lemma accept_nth u lp' lp corr i (d : R) :
    i < length u -> length lp' = length u -> length lp = length u ->
    (forall c, corr = Some c -> length c = length u) ->
    nth i (do_accept M u lp' lp corr) false =
    m_accept M (nth i u d) (nth i lp' d) (nth i lp d)
             (match corr with None => None | Some c => Some (nth i c d) end).
  Proof.
    intros Hi H1 H2 Hc. unfold do_accept. destruct corr as [c|].
    - specialize (Hc c eq_refl).
      set (f := fun t : R * (R * (R * R)) => _).
      rewrite (nth_indep _ false (f (d, (d, (d, d)))))
        by (rewrite map_length, !combine_length; lia).
      rewrite (map_nth f), !combine_nth by (rewrite ?combine_length; lia). reflexivity.
    - set (f := fun t : R * (R * R) => _).
      rewrite (nth_indep _ false (f (d, (d, d))))
        by (rewrite map_length, !combine_length; lia).
      rewrite (map_nth f), !combine_nth by (rewrite ?combine_length; lia). reflexivity.
  Qed.

  Lemma nth_error_some {A} (l : list A) i d : i < length l -> nth_error l i = Some (nth i l d).
  Proof. intros H. apply nth_error_nth'. exact H. Qed.

  (** The cached sweep is the reference move. *)
  Lemma sweep_ref p rs s :
    length (l_cfg s) = m_chains M ->
    l_lp s = map (m_logp M p) (l_cfg s) ->
    let s' := sweep M p rs s in
    l_key s' = fst (fst (m_split3 M (l_key s))) /\
    l_cfg s' = map (after M p rs (l_key s) (l_cfg s)) (seq 0 (m_chains M)) /\
    l_lp s' = map (m_logp M p) (l_cfg s') /\
    l_acc s' = l_acc s + count (map (moved M p rs (l_key s) (l_cfg s)) (seq 0 (m_chains M))).
  Proof.
    intros Hlen Hlp. unfold sweep. destruct (m_split3 M (l_key s)) as [[key key1] key2] eqn:Ek.
    destruct (m_trans M p rs key1 (l_cfg s)) as [y corr] eqn:Et.
    assert (Hy : length y = m_chains M)
      by (generalize (sh_trans M Hsh p rs key1 (l_cfg s) Hlen); rewrite Et; auto).
    assert (Hc : forall c, corr = Some c -> length c = m_chains M)
      by (intros c Hc; apply (sh_corr M Hsh p rs key1 (l_cfg s) c Hlen); rewrite Et; exact Hc).
    assert (Hu : length (m_unif M key2 (m_chains M)) = m_chains M) by apply (sh_unif M Hsh).
    set (u := m_unif M key2 (m_chains M)) in *.
    assert (Hb : do_accept M u (map (m_logp M p) y) (l_lp s) corr =
                 map (moved M p rs (l_key s) (l_cfg s)) (seq 0 (m_chains M))).
    { assert (Hl : length (do_accept M u (map (m_logp M p) y) (l_lp s) corr) = m_chains M)
        by (apply accept_length; rewrite ?Hlp, ?map_length; auto).
      apply (list_ext false).
      - rewrite Hl, map_length, seq_length. reflexivity.
      - intros i Hi. rewrite Hl in Hi.
        rewrite nth_indep with (l := map _ (seq 0 _))
            (d' := moved M p rs (l_key s) (l_cfg s) 0) by (rewrite map_length, seq_length; lia).
        rewrite map_nth, seq_nth by lia. rewrite Nat.add_0_l.
        unfold moved. rewrite Ek, Et. fold u.
        destruct y as [|y0 y']; [cbn in Hy; lia|].
        rewrite (nth_error_some (y0 :: y') i y0) by lia.
        rewrite (nth_error_some (l_cfg s) i y0) by lia.
        rewrite (nth_error_some u i (m_logp M p y0)) by lia.
        rewrite (accept_nth _ _ _ _ _ (m_logp M p y0)).
        + rewrite map_nth, Hlp, map_nth. f_equal. destruct corr as [c|]; [|reflexivity].
          symmetry. apply nth_error_some. rewrite (Hc c eq_refl). lia.
        + lia.
        + rewrite map_length. lia.
        + rewrite Hlp, map_length. lia.
        + intros c Hcc. rewrite (Hc c Hcc). lia. }
    cbn [l_key l_cfg l_lp l_acc]. repeat split.
    - rewrite Hb. apply (list_ext (m_zero M)).
      + rewrite map_length, seq_length. apply where_length; rewrite ?map_length, ?seq_length; auto.
      + intros i Hi.
        rewrite (where_length _ _ _ (m_chains M)) in Hi by (rewrite ?map_length, ?seq_length; auto).
        rewrite where_nth by (rewrite map_length, seq_length; auto).
        rewrite (nth_indep (map _ (seq 0 _)) false (moved M p rs (l_key s) (l_cfg s) 0))
          by (rewrite map_length, seq_length; lia).
        rewrite map_nth, seq_nth by lia. rewrite Nat.add_0_l.
        rewrite (nth_indep (map (after _ _ _ _ _) (seq 0 _)) _ (after M p rs (l_key s) (l_cfg s) 0))
          by (rewrite map_length, seq_length; lia).
        rewrite map_nth, seq_nth by lia. rewrite Nat.add_0_l.
        unfold after. rewrite Ek, Et. reflexivity.
    - rewrite Hlp, where_map. reflexivity.
    - rewrite Hb. reflexivity.
  Qed.

  Lemma sweeps_ref p rs n : forall s,
    length (l_cfg s) = m_chains M ->
    l_lp s = map (m_logp M p) (l_cfg s) ->
    let s' := sweeps M p rs n s in
    l_cfg s' = snd (moves M p rs n (l_key s) (l_cfg s)) /\
    l_lp s' = map (m_logp M p) (l_cfg s') /\
    l_acc s' = l_acc s + count (fst (moves M p rs n (l_key s) (l_cfg s))).
  Proof.
    induction n as [|n IH]; intros s Hlen Hlp; cbn [sweeps moves].
    - cbn. repeat split; auto.
    - destruct (sweep_ref p rs s Hlen Hlp) as (Hk & Hc & Hl & Ha).
      set (s1 := sweep M p rs s) in *.
      assert (Hlen1 : length (l_cfg s1) = m_chains M)
        by (rewrite Hc, map_length, seq_length; reflexivity).
      specialize (IH s1 Hlen1 Hl). cbn zeta in *. rewrite Hk, Hc in IH.
      destruct (m_split3 M (l_key s)) as [[k k1] k2] eqn:E. cbn [fst snd] in *.
      destruct IH as (H1 & H2 & H3). repeat split; try assumption.
      rewrite H3, Ha, count_app. lia.
  Qed.

  Lemma moves_length p rs n : forall key x, length x = m_chains M ->
    length (snd (moves M p rs n key x)) = m_chains M /\
    length (fst (moves M p rs n key x)) = n * m_chains M.
  Proof.
    induction n as [|n IH]; intros key x Hx; cbn [moves].
    - cbn. auto.
    - destruct (m_split3 M key) as [[k k1] k2].
      destruct (IH k (map (after M p rs key x) (seq 0 (m_chains M)))) as [H1 H2];
        [rewrite map_length, seq_length; reflexivity|].
      cbn [fst snd]. rewrite app_length, map_length, seq_length. split; [assumption|]. lia.
  Qed.

  (** Representation of a sampler state by a reference state. *)
  Definition rep (s : mstate Cfg Key RS) (r : @ref Cfg Key RS) : Prop :=
    r = (s_cfg s, s_rng s, s_rule s, snd r) /\
    length (s_cfg s) = m_chains M /\ s_acc s = count (snd r) /\ s_steps s = length (snd r).

  Lemma rep_next p s r : rep s r -> rep (fst (sample_next M p s)) (ref_next M p r).
  Proof.
    intros (Hr & Hlen & Ha & Hs). destruct r as [[[x key] rs] log].
    cbn [snd] in *. inversion Hr as [[E1 E2 E3]]. clear Hr.
    destruct (sweeps_ref p (s_rule s) (m_sweeps M) (loop_start M p s) Hlen eq_refl) as (H1 & H2 & H3).
    destruct (moves_length p (s_rule s) (m_sweeps M) (snd (m_split2 M (s_rng s))) (s_cfg s) Hlen)
      as [L1 L2].
    unfold sample_next, ref_next, rep. cbn [fst snd s_cfg s_rng s_rule s_acc s_steps].
    cbn [loop_start l_key l_cfg l_acc] in *.
    rewrite H1, H3. repeat split.
    - exact L1.
    - rewrite count_app. lia.
    - rewrite app_length, L2. lia.
  Qed.

  Lemma rep_chain p n : forall s r, rep s r ->
    rep (snd (sample_chain M p n s)) (ref_chain M p n r).
  Proof.
    induction n as [|n IH]; intros s r H; cbn [sample_chain ref_chain]; [exact H|].
    pose proof (rep_next p s r H) as Hn.
    destruct (sample_next M p s) as [s1 x] eqn:E. cbn [fst] in Hn.
    specialize (IH s1 _ Hn). destruct (sample_chain M p n s1) as [xs s2]. exact IH.
  Qed.

  Lemma rep_op s r o : rep s r -> rep (do_op M s o) (ref_op M r o).
  Proof.
    intros H. destruct o as [p|p|p n]; cbn [do_op ref_op].
    - destruct H as (Hr & Hlen & Ha & Hs). destruct r as [[[x key] rs] log].
      cbn [snd] in *. inversion Hr as [[E1 E2 E3]]. clear Hr. unfold reset, rep.
      destruct (m_split2 M (s_rng s)) as [nr rg]. cbn. repeat split.
      destruct (m_reset_chains M); [apply (sh_random M Hsh)|exact Hlen].
    - apply rep_next, H.
    - apply rep_chain, H.
  Qed.

  Lemma rep_init p key : rep (init_state M p key) (ref_init M p key).
  Proof.
    unfold init_state, ref_init, rep. destruct (m_split2 M key) as [ks kr]. cbn [fst snd].
    destruct (m_reset_chains M).
    - cbn. repeat split. apply repeat_length.
    - destruct (m_split2 M ks) as [ks' rng]. cbn. repeat split. apply (sh_random M Hsh).
  Qed.

  Lemma rep_run p key os : rep (do_ops M (init_state M p key) os) (ref_run M p key os).
  Proof.
    unfold do_ops, ref_run. generalize (rep_init p key).
    generalize (init_state M p key), (ref_init M p key).
    induction os as [|o os IH]; intros s r H; cbn [fold_left]; [exact H|].
    apply IH, rep_op, H.
  Qed.

  (** ** Validity *)
  Variable inH : Cfg -> Prop.
  Hypothesis Hrv : rule_valid M inH.

  Lemma sweep_valid p rs s : Forall inH (l_cfg s) -> Forall inH (l_cfg (sweep M p rs s)).
  Proof.
    intros H. unfold sweep. destruct (m_split3 M (l_key s)) as [[k k1] k2].
    pose proof (rv_trans M inH Hrv p rs k1 (l_cfg s) H) as Hv.
    destruct (m_trans M p rs k1 (l_cfg s)) as [y corr]. cbn [l_cfg].
    apply where_Forall; [exact Hv|exact H].
  Qed.

  Lemma sweeps_valid p rs n : forall s, Forall inH (l_cfg s) -> Forall inH (l_cfg (sweeps M p rs n s)).
  Proof. induction n as [|n IH]; intros s H; cbn [sweeps]; [exact H|]. apply IH, sweep_valid, H. Qed.

  Lemma next_valid p s : Forall inH (s_cfg s) -> Forall inH (s_cfg (fst (sample_next M p s))).
  Proof. intros H. unfold sample_next. cbn. apply sweeps_valid. exact H. Qed.

  Lemma chain_valid p n : forall s, Forall inH (s_cfg s) -> length (s_cfg s) = m_chains M ->
    Forall (fun x => length x = m_chains M /\ Forall inH x) (fst (sample_chain M p n s)) /\
    length (fst (sample_chain M p n s)) = n /\
    Forall inH (s_cfg (snd (sample_chain M p n s))).
  Proof.
    induction n as [|n IH]; intros s H Hl; cbn [sample_chain].
    - cbn. auto.
    - pose proof (next_valid p s H) as Hn.
      assert (Hl1 : length (s_cfg (fst (sample_next M p s))) = m_chains M).
      { destruct (sweeps_ref p (s_rule s) (m_sweeps M) (loop_start M p s) Hl eq_refl) as (H1 & _).
        unfold sample_next. cbn [fst s_cfg]. rewrite H1.
        apply (moves_length p (s_rule s) (m_sweeps M) _ (s_cfg s) Hl). }
      assert (Hx : snd (sample_next M p s) = s_cfg (fst (sample_next M p s))) by reflexivity.
      destruct (sample_next M p s) as [s1 x]. cbn [fst snd] in *.
      destruct (IH s1 Hn Hl1) as (H1 & H2 & H3).
      destruct (sample_chain M p n s1) as [xs s2]. cbn [fst snd] in *.
      repeat split; [|cbn; lia|exact H3].
      constructor; [rewrite Hx; auto|exact H1].
  Qed.

  Lemma op_valid s o : length (s_cfg s) = m_chains M ->
    Forall inH (s_cfg s) -> Forall inH (s_cfg (do_op M s o)).
  Proof.
    intros Hl H. destruct o as [p|p|p n]; cbn [do_op].
    - unfold reset. destruct (m_split2 M (s_rng s)) as [a b]. cbn.
      destruct (m_reset_chains M); [apply (rv_random M inH Hrv)|exact H].
    - apply next_valid, H.
    - apply chain_valid; assumption.
  Qed.

  Lemma ops_valid os : forall s r, rep s r -> Forall inH (s_cfg s) ->
    Forall inH (s_cfg (do_ops M s os)).
  Proof.
    unfold do_ops. induction os as [|o os IH]; intros s r Hr H; cbn [fold_left]; [exact H|].
    apply (IH _ (ref_op M r o)); [apply rep_op, Hr|]. apply op_valid; [apply Hr|exact H].
  Qed.

  Lemma run_valid p key os : started M os ->
    Forall inH (s_cfg (do_ops M (init_state M p key) os)).
  Proof.
    intros Hst. destruct (m_reset_chains M) eqn:Er.
    - destruct Hst as [H|(p' & os' & ->)]; [congruence|].
      change (do_ops M (init_state M p key) (Reset p' :: os'))
        with (do_ops M (reset M p' (init_state M p key)) os').
      apply (ops_valid os' _ (ref_op M (ref_init M p key) (Reset p'))).
      + apply (rep_op _ _ (Reset p')), rep_init.
      + unfold reset. destruct (m_split2 M _) as [a b]. cbn. rewrite Er. apply (rv_random M inH Hrv).
    - apply (ops_valid os _ (ref_init M p key)); [apply rep_init|].
      unfold init_state. destruct (m_split2 M key) as [ks kr]. rewrite Er.
      destruct (m_split2 M ks) as [ks' rng]. cbn. apply (rv_random M inH Hrv).
  Qed.

  (** ** Totals *)
  Lemma acc_total p keys os :
    n_accepted (world M p keys os) = total (fun k => count (run_log (ref_run M p k os))) keys.
  Proof.
    unfold n_accepted, world, total. induction keys as [|k ks IH]; [reflexivity|].
    cbn [map fold_right]. rewrite IH. f_equal.
    destruct (rep_run p k os) as (_ & _ & H & _). exact H.
  Qed.
End P.

Section Q.
  Context {Cfg Par R Key RS : Type}.
  Variable M : metro Cfg Par R Key RS.
  Hypothesis Hsh : shapes_ok M.

  (** Every rank has made the same number of moves. *)
  Fixpoint planned (os : list (@mop Par)) (n : nat) : nat :=
    match os with
    | [] => n
    | Reset _ :: os => planned os 0
    | Next _ :: os => planned os (n + m_sweeps M * m_chains M)
    | Chain _ k :: os => planned os (n + k * (m_sweeps M * m_chains M))
    end.

  Lemma chain_steps p k : forall s,
    s_steps (snd (sample_chain M p k s)) = s_steps s + k * (m_sweeps M * m_chains M).
  Proof.
    induction k as [|k IH]; intros s; cbn [sample_chain]; [cbn; lia|].
    destruct (sample_next M p s) as [s1 x] eqn:E.
    assert (H1 : s_steps s1 = s_steps s + m_sweeps M * m_chains M)
      by (apply (f_equal (fun t => s_steps (fst t))) in E; cbn in E; lia).
    specialize (IH s1). destruct (sample_chain M p k s1) as [xs s2]. cbn [snd] in *. lia.
  Qed.

  Lemma planned_steps os : forall s, s_steps (do_ops M s os) = planned os (s_steps s).
  Proof.
    unfold do_ops. induction os as [|o os IH]; intros s; cbn [fold_left planned]; [reflexivity|].
    rewrite IH. destruct o as [p|p|p k]; cbn [do_op].
    - unfold reset. destruct (m_split2 M (s_rng s)) as [a b]. reflexivity.
    - reflexivity.
    - rewrite chain_steps. reflexivity.
  Qed.

  Lemma same_steps p k os : length (run_log (ref_run M p k os)) = planned os 0.
  Proof.
    destruct (rep_run M Hsh p k os) as (_ & _ & _ & H). unfold run_log. rewrite <- H, planned_steps.
    f_equal. unfold init_state. destruct (m_split2 M k) as [a b]. destruct (m_reset_chains M); [reflexivity|].
    destruct (m_split2 M a) as [c d]. reflexivity.
  Qed.

  Lemma steps_total p keys os r : r < length keys ->
    n_steps (world M p keys os) r =
    Some (total (fun k => length (run_log (ref_run M p k os))) keys).
  Proof.
    intros Hr. unfold n_steps, world. rewrite map_length.
    destruct keys as [|k0 ks0] eqn:Ek; [cbn in Hr; lia|]. rewrite <- Ek in *. clear Ek.
    rewrite (map_nth_error _ _ _ (nth_error_nth' keys k0 Hr)). cbn [option_map]. f_equal.
    destruct (rep_run M Hsh p (nth r keys k0) os) as (_ & _ & _ & H). rewrite H.
    change (snd (ref_run M p (nth r keys k0) os)) with (run_log (ref_run M p (nth r keys k0) os)).
    rewrite same_steps. clear -Hsh. unfold total. induction keys as [|k ks IH]; [cbn; lia|].
    cbn [fold_right length]. rewrite same_steps. lia.
  Qed.

  Lemma batches_ref p keys os :
    map (fun s => s_cfg s) (world M p keys os) =
    map (fun k => run_batch (ref_run M p k os)) keys.
  Proof.
    unfold world. rewrite map_map. apply map_ext. intros k.
    destruct (rep_run M Hsh p k os) as (H & _). rewrite H. reflexivity.
  Qed.

  Lemma acc_le_steps p keys os r n : n_steps (world M p keys os) r = Some n ->
    n_accepted (world M p keys os) <= n.
  Proof.
    intros H. assert (Hr : r < length keys).
    { unfold n_steps in H. destruct (nth_error (world M p keys os) r) eqn:E; [|discriminate].
      assert (r < length (world M p keys os)) by (apply nth_error_Some; congruence).
      unfold world in *. rewrite map_length in *. assumption. }
    rewrite steps_total in H by exact Hr. injection H as <-. rewrite acc_total by exact Hsh.
    unfold total. clear. induction keys as [|k ks IH]; [cbn; lia|].
    cbn [fold_right]. pose proof (count_le (run_log (ref_run M p k os))). lia.
  Qed.

  Lemma acceptance_range p keys os r q : acceptance (world M p keys os) r = Some q ->
    (0 <= q <= 1)%Q.
  Proof.
    unfold acceptance. destruct (n_steps (world M p keys os) r) as [[|n]|] eqn:E; try discriminate.
    intros H. injection H as <-. pose proof (acc_le_steps p keys os r (S n) E) as Hle.
    split.
    - apply Qle_shift_div_l; [unfold Qlt; cbn; lia|]. rewrite Qmult_0_l. unfold Qle. cbn. lia.
    - apply Qle_shift_div_r; [unfold Qlt; cbn; lia|]. rewrite Qmult_1_l. unfold Qle. cbn. lia.
  Qed.
End Q.

(** ** The numpy sampler *)
Section N.
  Context {Cfg Par R Key RS : Type}.
  Variable M : metro Cfg Par R Key RS.
  Hypothesis Hsh : shapes_ok M.

  Lemma kernel_where n : forall sigp lv' corr u sigma lv,
    length sigp = n -> length lv' = n -> length u = n -> length sigma = n -> length lv = n ->
    (forall c, corr = Some c -> length c = n) ->
    let b := do_accept M u lv' lv corr in
    accept_kernel M sigp lv' corr u sigma lv = (where_ b sigp sigma, where_ b lv' lv, count b).
  Proof.
    induction n as [|n IH]; intros sigp lv' corr u sigma lv H1 H2 H3 H4 H5 Hc.
    - destruct sigp, lv', u, sigma, lv; try discriminate. destruct corr; reflexivity.
    - destruct sigp as [|y sigp], lv' as [|l' lv'], u as [|r u], sigma as [|x sigma], lv as [|l lv];
        try discriminate. cbn [length] in *.
      injection H1 as H1. injection H2 as H2. injection H3 as H3. injection H4 as H4. injection H5 as H5.
      cbn zeta. destruct corr as [c|].
      + pose proof (Hc c eq_refl) as Hcl. destruct c as [|c0 c]; [discriminate|]. cbn [length] in Hcl.
        cbn [accept_kernel]. rewrite (IH sigp lv' (Some c) u sigma lv) by
          (try assumption; intros c' Hc'; injection Hc' as <-; lia).
        unfold do_accept, where_, count. cbn.
        destruct (m_accept M r l' l (Some c0)); reflexivity.
      + cbn [accept_kernel]. rewrite (IH sigp lv' None u sigma lv) by
          (try assumption; intros c' Hc'; discriminate).
        unfold do_accept, where_, count. cbn.
        destruct (m_accept M r l' l None); reflexivity.
  Qed.

  Lemma np_sweep_eq p rs s : length (l_cfg s) = m_chains M -> length (l_lp s) = m_chains M ->
    np_sweep M p rs s = sweep M p rs s.
  Proof.
    intros H1 H2. unfold np_sweep, sweep. destruct (m_split3 M (l_key s)) as [[k k1] k2].
    destruct (m_trans M p rs k1 (l_cfg s)) as [y corr] eqn:Et.
    assert (Hy : length y = m_chains M)
      by (generalize (sh_trans M Hsh p rs k1 (l_cfg s) H1); rewrite Et; auto).
    assert (Hc : forall c, corr = Some c -> length c = m_chains M)
      by (intros c Hc; apply (sh_corr M Hsh p rs k1 (l_cfg s) c H1); rewrite Et; exact Hc).
    rewrite H1. rewrite (kernel_where (m_chains M)); auto.
    - rewrite map_length. exact Hy.
    - apply (sh_unif M Hsh).
  Qed.

  Lemma np_sweeps_eq p rs n : forall s,
    length (l_cfg s) = m_chains M -> l_lp s = map (m_logp M p) (l_cfg s) ->
    np_sweeps M p rs n s = sweeps M p rs n s.
  Proof.
    induction n as [|n IH]; intros s H1 H2; cbn [np_sweeps sweeps]; [reflexivity|].
    rewrite np_sweep_eq by (rewrite ?H2, ?map_length; assumption).
    destruct (sweep_ref M Hsh p rs s H1 H2) as (_ & Hc & Hl & _).
    apply IH; [|exact Hl]. rewrite Hc, map_length, seq_length. reflexivity.
  Qed.

  Fixpoint np_nexts (nodes : nat) (p : Par) (n : nat) (s : nstate Cfg R Key RS) : nstate Cfg R Key RS :=
    match n with O => s | S n => np_nexts nodes p n (np_next M nodes p s) end.

  Lemma np_next_ref p s : length (v_cfg s) = m_chains M ->
    v_lv s = map (m_logp M p) (v_cfg s) ->
    let r := moves M p (v_rule s) (m_sweeps M) (v_rng s) (v_cfg s) in
    let s' := np_next M 1 p s in
    v_cfg s' = snd r /\ length (v_cfg s') = m_chains M /\
    v_lv s' = map (m_logp M p) (v_cfg s') /\
    np_n_steps 1 s' = np_n_steps 1 s + length (fst r) /\
    np_n_accepted [s'] = np_n_accepted [s] + count (fst r).
  Proof.
    intros H1 H2. cbn zeta. unfold np_next.
    rewrite np_sweeps_eq by assumption.
    destruct (sweeps_ref M Hsh p (v_rule s) (m_sweeps M) (LState (v_rng s) (v_cfg s) (v_lv s) 0) H1 H2)
      as (E1 & E2 & E3).
    destruct (moves_length M p (v_rule s) (m_sweeps M) (v_rng s) (v_cfg s) H1) as [L1 L2].
    cbn [l_key l_cfg l_acc] in *.
    unfold np_n_steps, np_n_accepted. cbn [v_cfg v_lv v_steps v_acc fold_right].
    rewrite L2, E3, E1. repeat split; try assumption; try lia. rewrite E2, E1. reflexivity.
  Qed.

  Lemma np_reset_ok p s : length (v_cfg s) = m_chains M ->
    length (v_cfg (np_reset M p s)) = m_chains M /\
    v_lv (np_reset M p s) = map (m_logp M p) (v_cfg (np_reset M p s)).
  Proof.
    intros H. unfold np_reset. destruct (m_reset_chains M).
    - destruct (m_split2 M (v_rng s)) as [k k1]. cbn. split; [apply (sh_random M Hsh)|reflexivity].
    - cbn. split; [exact H|reflexivity].
  Qed.
End N.
