From Coq Require Import List Arith ZArith QArith Bool Lia Lqa.
From Verif Require Import Base BaseFacts Hilbert_Model Hilbert_Spec Hilbert_Proofs ARSamp_Model ARSamp_Spec ARSamp_Proofs ExactSamp_Model ExactSamp_Spec.
Import ListNotations.
Open Scope Q_scope.

Definition picks (p : list Q) (i : nat) (v : Q) : Prop := lower p i < v /\ v <= upper p i.

Lemma choice_is p u : jax_choice p u = choice_index p (1 - u).
Proof. reflexivity. Qed.

Lemma pick_spec p v i : weights p -> 0 < v -> (i < length p)%nat -> (choice_index p v = i <-> picks p i v).
Proof.
  intros Hw Hu Hi. pose proof Hw as [Hp Hs]. pose proof (weights_ne p Hw) as Hne.
  unfold choice_index. set (r := last (cumsum 0 p) 0 * v).
  assert (Hr : r == qsum p * v) by (unfold r; rewrite cumsum_last by exact Hne; ring).
  rewrite (filter_nth_seq _ _ 0), cumsum_length.
  assert (Hf : forall j, (j < length p)%nat -> (Qgtb r (nth j (cumsum 0 p) 0) = true <-> qsum (firstn (S j) p) < qsum p * v)).
  { intros j Hj. rewrite Qgtb_iff, cumsum_nth by exact Hj. rewrite Hr, Qplus_0_l. reflexivity. }
  rewrite (count_sorted (fun j => Qgtb r (nth j (cumsum 0 p) 0)) (length p) i).
  - unfold picks, lower, upper. split.
    + intros [H1 H2]. split.
      * destruct i as [|i].
        -- cbn. unfold Qdiv. rewrite Qmult_0_l. exact Hu.
        -- apply scale_lt; [exact Hs|]. apply Hf; [lia|]. apply H1. lia.
      * apply scale_le; [exact Hs|]. specialize (H2 i ltac:(lia)).
        destruct (Qlt_le_dec (qsum (firstn (S i) p)) (qsum p * v)) as [H|H]; [|exact H].
        apply Hf in H; [|exact Hi]. congruence.
    + intros [H1 H2]. apply scale_le in H2; [|exact Hs]. split; intros j Hj.
      * apply Hf; [lia|]. apply scale_lt in H1; [|exact Hs].
        pose proof (qsum_firstn_mono p (S j) i Hp ltac:(lia)). lra.
      * destruct (Qgtb r (nth j (cumsum 0 p) 0)) eqn:E; [|reflexivity].
        apply Hf in E; [|lia]. pose proof (qsum_firstn_mono p (S i) (S j) Hp ltac:(lia)). lra.
  - intros a b Hab Hb. apply Hf; [lia|]. apply Hf in Hb; [|lia].
    pose proof (qsum_firstn_mono p (S a) (S b) Hp ltac:(lia)). lra.
  - lia.
Qed.

Lemma pick_lt p v : weights p -> v <= 1 -> (choice_index p v < length p)%nat.
Proof.
  intros Hw Hu. pose proof Hw as [Hp Hs]. pose proof (weights_ne p Hw) as Hne.
  unfold choice_index. set (r := last (cumsum 0 p) 0 * v).
  assert (Hr : r == qsum p * v) by (unfold r; rewrite cumsum_last by exact Hne; ring).
  rewrite (filter_nth_seq _ _ 0), cumsum_length.
  destruct p as [|x p] using rev_ind; [congruence|]. clear IHp.
  rewrite app_length. cbn [length]. rewrite Nat.add_1_r, seq_S, filter_app, app_length.
  cbn [filter Nat.add].
  assert (E : Qgtb r (nth (length p) (cumsum 0 (p ++ [x])) 0) = false).
  { destruct (Qgtb r _) eqn:E; [|reflexivity]. apply Qgtb_iff in E.
    rewrite cumsum_nth in E by (rewrite app_length; cbn; lia).
    rewrite firstn_all2 in E by (rewrite app_length; cbn; lia).
    rewrite Hr in E.
    assert (qsum (p ++ [x]) * v <= qsum (p ++ [x]) * 1) by (apply Qmult_le_l; lra). lra. }
  rewrite E. cbn [length]. rewrite Nat.add_0_r.
  assert (H : forall f m, (length (filter f (seq 0 m)) <= m)%nat).
  { intros f m. rewrite <- (seq_length m 0) at 2. induction (seq 0 m) as [|y l IH]; cbn; [lia|]. destruct (f y); cbn; lia. }
  specialize (H (fun i => Qgtb r (nth i (cumsum 0 (p ++ [x])) 0)) (length p)). lia.
Qed.

Lemma total_qsum p : total p = qsum p.
Proof. induction p as [|x p IH]; [reflexivity|]. cbn. unfold total in IH. now rewrite IH. Qed.
Lemma qpow_nonneg a n : 0 <= a -> 0 <= qpow a n.
Proof. intros H. induction n as [|n IH]; cbn [qpow]; [lra|]. apply Qmult_le_0_compat; assumption. Qed.
Lemma qpow_pos a n : 0 < a -> 0 < qpow a n.
Proof. intros H. induction n as [|n IH]; cbn [qpow]; [lra|]. apply Qmult_lt_0_compat; assumption. Qed.
Lemma qpow_zero a n : a == 0 -> (0 < n)%nat -> qpow a n == 0.
Proof. intros H Hn. destruct n as [|n]; [lia|]. cbn [qpow]. transitivity (0 * qpow a n); [apply Qmult_comp; [exact H|reflexivity]|ring]. Qed.

Section Reset.
Variables (N pow : nat) (amps : list Q).
Hypothesis HA : amplitudes N amps.
Let w := map (fun a => qpow a pow) amps.
Lemma w_nonneg : Forall (fun x => 0 <= x) w.
Proof. destruct HA as (_ & F & _). apply Forall_map. eapply Forall_impl; [|exact F]. intros a H. apply qpow_nonneg, H. Qed.
Lemma w_pos : 0 < qsum w.
Proof.
  destruct HA as (_ & F & E). unfold w. clear HA w. induction E as [a l Ha|a l E IH].
  - cbn [map qsum]. inversion F as [|? ? _ Fl]; subst.
    assert (0 <= qsum (map (fun a => qpow a pow) l)).
    { apply qsum_nonneg, Forall_map. eapply Forall_impl; [|exact Fl]. intros x H. apply qpow_nonneg, H. }
    pose proof (qpow_pos a pow Ha). lra.
  - cbn [map qsum]. inversion F as [|? ? H0 Fl]; subst. pose proof (qpow_nonneg a pow H0). specialize (IH Fl). lra.
Qed.
Lemma reset_ok : es_reset amps pow = Ok (map (fun x => x / qsum w) w).
Proof.
  unfold es_reset. rewrite total_qsum. fold w. pose proof w_pos.
  destruct (Qeq_bool (qsum w) 0) eqn:E; [apply Qeq_bool_iff in E; lra|reflexivity].
Qed.
Let p := map (fun x => x / qsum w) w.
Lemma qsum_div (l : list Q) t : ~ t == 0 -> qsum (map (fun x => x / t) l) == qsum l / t.
Proof. intros H. induction l as [|x l IH]; cbn [map qsum]; [field; exact H|]. rewrite IH. field. exact H. Qed.
Lemma p_sum : qsum p == 1.
Proof. unfold p. pose proof w_pos. rewrite qsum_div by lra. field. lra. Qed.
Lemma p_weights : weights p.
Proof.
  split; [|rewrite p_sum; lra]. apply Forall_map. eapply Forall_impl; [|exact w_nonneg]. intros x H. cbn beta.
  pose proof w_pos. apply Qle_shift_div_l; [assumption|]. rewrite Qmult_0_l. exact H.
Qed.
Lemma p_length : length p = N.
Proof. unfold p, w. rewrite !map_length. apply HA. Qed.
Lemma p_nth i : (i < N)%nat -> nth i p 0 = born amps pow i.
Proof.
  intros Hi. unfold p. destruct HA as [HL _]. set (g := fun x => x / qsum w).
  rewrite (nth_indep _ 0 (g 0)) by (unfold w; rewrite !map_length; lia). rewrite (map_nth g). unfold g, born. fold w.
  f_equal. unfold w. set (f := fun a => qpow a pow). rewrite (nth_indep _ 0 (f 0)) by (rewrite map_length; lia). rewrite (map_nth f). reflexivity.
Qed.
Lemma p_below i : (i <= N)%nat -> qsum (firstn i p) == born_below amps pow i.
Proof.
  intros Hi. unfold born_below. induction i as [|i IH]; [reflexivity|].
  rewrite qsum_firstn_S by (rewrite p_length; lia). rewrite IH by lia. rewrite p_nth by lia.
  rewrite seq_S, map_app, qsum_app. cbn. ring.
Qed.
Lemma picks_drawn i u : (i < N)%nat -> picks p i (1 - u) <-> drawn amps pow i u.
Proof.
  intros Hi. unfold picks, lower, upper, drawn. rewrite qsum_firstn_S by (rewrite p_length; exact Hi).
  rewrite p_below by lia. rewrite p_nth by exact Hi. rewrite p_sum.
  assert (E : forall x, x / 1 == x) by (intros x; field). rewrite !E. split; intros [A B]; split; lra.
Qed.
Lemma number_drawn u i : draw u -> (i < N)%nat -> jax_choice p u = i <-> drawn amps pow i u.
Proof.
  intros [U0 U1] Hi. rewrite choice_is, <- (picks_drawn i u Hi). apply pick_spec; [exact p_weights|lra|rewrite p_length; exact Hi].
Qed.
Lemma number_lt u : draw u -> (jax_choice p u < N)%nat.
Proof. intros [U0 U1]. rewrite choice_is, <- p_length. apply pick_lt; [exact p_weights|lra]. Qed.

(** ** Samples *)
Variable h : hilbert.
Hypothesis Hs : sane h.
Hypothesis HN : n_states h = Ok (Z.of_nat N).

Lemma state_of i : (i < N)%nat -> exists s, numbers_to_states h (Z.of_nat i) = Ok s /\ config h s /\ states_to_numbers h s = Ok (Z.of_nat i).
Proof. intros Hi. apply (round_trip_numbers h (Z.of_nat N) Hs HN). lia. Qed.

Definition the_state (i : nat) : list Z := match numbers_to_states h (Z.of_nat i) with Ok s => s | Err _ => [] end.
Lemma the_state_ok i : (i < N)%nat -> numbers_to_states h (Z.of_nat i) = Ok (the_state i).
Proof. intros Hi. unfold the_state. destruct (state_of i Hi) as (s & E & _). rewrite E. reflexivity. Qed.

Lemma samples_ok us : Forall draw us ->
  sequence (map (fun u => numbers_to_states h (Z.of_nat (jax_choice p u))) us) = Ok (map (fun u => the_state (jax_choice p u)) us).
Proof.
  intros F. apply (sequence_ok (fun u => numbers_to_states h (Z.of_nat (jax_choice p u))) (fun u => the_state (jax_choice p u))). intros u I.
  rewrite Forall_forall in F. apply the_state_ok, number_lt, F, I.
Qed.

Lemma state_drawn u s n : draw u -> states_to_numbers h s = Ok (Z.of_nat n) -> config h s ->
  the_state (jax_choice p u) = s <-> drawn amps pow n u.
Proof.
  intros U E C. pose proof (number_lt u U) as Hl.
  destruct (round_trip_states h (Z.of_nat N) Hs HN s C) as (m & Hm & E1 & E2). rewrite E in E1. injection E1 as <-.
  assert (Hn : (n < N)%nat) by lia. rewrite <- (number_drawn u n U Hn). split.
  - intros X. destruct (state_of _ Hl) as (t & T1 & T2 & T3). pose proof (the_state_ok _ Hl) as T. rewrite T in T1. injection T1 as <-.
    rewrite X in T3. rewrite E in T3. injection T3 as T3. apply Nat2Z.inj in T3. congruence.
  - intros X. pose proof (the_state_ok _ Hl) as T. rewrite X in *. rewrite E2 in T. injection T as <-. reflexivity.
Qed.
End Reset.

Lemma sample_main h N amps pow cl nc us : sane h -> n_states h = Ok (Z.of_nat N) -> amplitudes N amps ->
  length us = (cl * nc)%nat -> Forall draw us ->
  exists out, sample_without_state h amps pow cl nc us = Ok out /\ length out = cl /\ Forall (fun r => length r = nc) out /\
    Forall (Forall (config h)) out /\
    forall b s n, (b < cl * nc)%nat -> config h s -> states_to_numbers h s = Ok (Z.of_nat n) ->
      (nth b (concat out) [] = s <-> drawn amps pow n (nth b us 0)).
Proof.
  intros Hs HN HA HL HU. unfold sample_without_state. rewrite (reset_ok N pow amps HA). cbn [bind].
  unfold es_sample_chain. rewrite (samples_ok N pow amps HA h Hs HN us HU). cbn [bind].
  set (l := map _ us). assert (Ll : length l = (cl * nc)%nat) by (unfold l; rewrite map_length; exact HL).
  exists (chunks cl nc l). split; [reflexivity|]. destruct (chunks_shape cl nc l Ll) as [S1 S2].
  split; [exact S1|]. split; [exact S2|]. split.
  - apply Forall_forall. intros r Hr. apply Forall_forall. intros s Ir.
    assert (I : In s l) by (rewrite <- (chunks_concat cl nc l Ll); apply in_concat; eauto).
    unfold l in I. apply in_map_iff in I. destruct I as (u & <- & Iu). rewrite Forall_forall in HU.
    pose proof (number_lt N pow amps HA u (HU u Iu)) as Hlt. destruct (state_of N h Hs HN _ Hlt) as (t & E & C & _).
    rewrite (the_state_ok N h Hs HN _ Hlt) in E. injection E as ->. exact C.
  - intros b s n Hb C E. rewrite (chunks_concat cl nc l Ll). unfold l.
    set (g := fun u => the_state h (jax_choice (map (fun x => x / qsum (map (fun a => qpow a pow) amps)) (map (fun a => qpow a pow) amps)) u)).
    rewrite (nth_indep _ [] (g 0)) by (rewrite map_length; lia). rewrite (map_nth g). unfold g.
    apply (state_drawn N pow amps HA h Hs HN); auto. rewrite Forall_forall in HU. apply HU, nth_In. lia.
Qed.

Lemma interval N amps pow i : amplitudes N amps -> (i < N)%nat ->
  (1 - born_below amps pow i) - (1 - born_below amps pow i - born amps pow i) == born amps pow i /\
  0 <= born amps pow i /\ 0 <= 1 - born_below amps pow i - born amps pow i /\ 1 - born_below amps pow i <= 1 /\
  born_below amps pow N == 1.
Proof.
  intros HA Hi. pose proof (p_weights N pow amps HA) as W. pose proof (p_length N pow amps HA) as PL.
  destruct (length_is_probability _ i W ltac:(rewrite PL; exact Hi)) as (A & B & C).
  unfold lower, upper, probability in *. rewrite (p_sum N pow amps HA) in A, B, C.
  rewrite qsum_firstn_S in A, C by (rewrite PL; exact Hi). rewrite (p_below N pow amps HA) in A, B, C by lia.
  rewrite (p_nth N pow amps HA i Hi) in A, C.
  assert (E : forall x, x / 1 == x) by (intros x; field). rewrite !E in *.
  assert (P : 0 <= born amps pow i).
  { rewrite <- (p_nth N pow amps HA i Hi). destruct W as [F _]. rewrite Forall_forall in F. apply F, nth_In. rewrite PL. exact Hi. }
  repeat split; try lra.
  rewrite <- (p_below N pow amps HA N (le_n N)). rewrite firstn_all2 by (rewrite PL; lia). apply p_sum with N. exact HA.
Qed.

Lemma zero_never N amps pow i u : amplitudes N amps -> (0 < pow)%nat -> nth i amps 0 == 0 -> ~ drawn amps pow i u.
Proof.
  intros HA Hp Z [A B]. unfold born in A. rewrite (qpow_zero _ pow Z Hp) in A.
  pose proof (w_pos N pow amps HA). assert (E : 0 / qsum (map (fun a => qpow a pow) amps) == 0) by (field; lra). rewrite E in A. lra.
Qed.
Lemma support N amps pow i : amplitudes N amps -> (i < N)%nat -> 0 < nth i amps 0 -> exists u, draw u /\ drawn amps pow i u.
Proof.
  intros HA Hi P. exists (1 - born_below amps pow i - born amps pow i).
  destruct (interval N amps pow i HA Hi) as (_ & B & C & D & _).
  assert (0 < born amps pow i).
  { unfold born. pose proof (w_pos N pow amps HA). apply Qlt_shift_div_l; [assumption|]. rewrite Qmult_0_l. apply qpow_pos, P. }
  split; [split|split]; lra.
Qed.

Lemma cumsum_zero n acc : Forall (fun x => x == acc) (cumsum acc (repeat 0 n)).
Proof.
  revert acc. induction n as [|n IH]; intros acc; [constructor|]. cbn [repeat cumsum]. constructor; [ring|].
  eapply Forall_impl; [|apply IH]. intros x H. rewrite H. ring.
Qed.
Lemma last_zero n : last (cumsum 0 (repeat 0 n)) 0 == 0.
Proof.
  pose proof (cumsum_zero n 0) as F. destruct (cumsum 0 (repeat 0 n)) as [|x l] eqn:E; [reflexivity|].
  rewrite Forall_forall in F. apply F. rewrite <- E in *. clear -E.
  assert (H : forall (l : list Q) d, l <> [] -> In (last l d) l).
  { induction l0 as [|y l0 IH]; intros d H; [congruence|]. destruct l0; [left; reflexivity|]. right. apply IH. discriminate. }
  apply H. rewrite E. discriminate.
Qed.
Lemma unreset n u : jax_choice (es_init n) u = O.
Proof.
  unfold jax_choice, es_init. set (r := last (cumsum 0 (repeat 0 n)) 0 * (1 - u)).
  assert (Hr : r == 0) by (unfold r; rewrite last_zero; ring).
  clearbody r. assert (E : filter (fun x => Qgtb r x) (cumsum 0 (repeat 0 n)) = []).
  { pose proof (cumsum_zero n 0) as F. induction F as [|x l Hx F IH]; [reflexivity|]. cbn [filter].
    destruct (Qgtb r x) eqn:G; [apply Qgtb_iff in G; lra|exact IH]. }
  rewrite E. reflexivity.
Qed.
Lemma unreset_main h N us : sane h -> n_states h = Ok (Z.of_nat N) -> (0 < N)%nat ->
  exists s0, numbers_to_states h 0 = Ok s0 /\ sample_next_without_state h N us = Ok (repeat s0 (length us)).
Proof.
  intros Hs HN H0. destruct (state_of N h Hs HN 0 H0) as (s0 & E & _). exists s0. split; [exact E|].
  unfold sample_next_without_state, es_sample_next. rewrite (sequence_ok _ (fun _ => s0)).
  - f_equal. induction us as [|u us IH]; [reflexivity|]. cbn. now rewrite IH.
  - intros u _. rewrite unreset. exact E.
Qed.

(** ** Histories *)
Lemma pdf_after N ops s last_amps s' outs h : ops_run h ops s = Ok (s', outs) ->
  (forall a, last_amps = Some a -> es_reset (fst a) (snd a) = Ok s) ->
  (last_amps = None -> s = es_init N) ->
  forall l, last_reset ops last_amps = l ->
  (forall a, l = Some a -> es_reset (fst a) (snd a) = Ok s') /\ (l = None -> s' = es_init N).
Proof.
  revert s last_amps s' outs. induction ops as [|o ops IH]; intros s la s' outs E H1 H2 l HL.
  - cbn in E. injection E as <- <-. cbn in HL. subst l. split; assumption.
  - cbn [ops_run] in E. destruct (op_step h o s) as [[s1 o1]|e] eqn:E1; [|discriminate]. cbn [bind fst snd] in E.
    destruct (ops_run h ops s1) as [[s2 o2]|e] eqn:E2; [|discriminate]. cbn [bind fst snd] in E. injection E as <- <-.
    cbn [last_reset] in HL. destruct o as [amps pow|us|cl nc us]; cbn [op_step] in E1.
    + destruct (es_reset amps pow) as [q|e] eqn:R; [|discriminate]. cbn [bind] in E1. injection E1 as <- <-.
      apply (IH _ (Some (amps, pow)) _ _ E2) with (l := l); [intros a Ha; injection Ha as <-|discriminate|exact HL]. exact R.
    + destruct (es_sample_next h s us) as [q|e]; [|discriminate]. cbn [bind] in E1. injection E1 as <- <-. apply (IH _ _ _ _ E2 H1 H2 l HL).
    + destruct (es_sample_chain h s cl nc us) as [q|e]; [|discriminate]. cbn [bind] in E1. injection E1 as <- <-. apply (IH _ _ _ _ E2 H1 H2 l HL).
Qed.
Lemma history_main h N ops s outs amps pow cl nc us : ops_run h ops (es_init N) = Ok (s, outs) ->
  last_reset ops None = Some (amps, pow) ->
  es_sample_chain h s cl nc us = sample_without_state h amps pow cl nc us.
Proof.
  intros E L.
  assert (H : forall a, Some (amps, pow) = Some a -> es_reset (fst a) (snd a) = Ok s)
    by (apply (pdf_after N ops (es_init N) None s outs h E); [discriminate|reflexivity|exact L]).
  unfold sample_without_state. pose proof (H (amps, pow) eq_refl) as HH; cbn [fst snd] in HH; rewrite HH. reflexivity.
Qed.

Lemma qpow_mul c a n : qpow (c * a) n == qpow c n * qpow a n.
Proof. induction n as [|n IH]; cbn [qpow]; [ring|]. rewrite IH. ring. Qed.
Lemma qpow_proper a b n : a == b -> qpow a n == qpow b n.
Proof. intros H. induction n as [|n IH]; cbn [qpow]; [reflexivity|]. apply Qmult_comp; assumption. Qed.
Lemma nth_scale c l i : nth i (map (Qmult c) l) 0 == c * nth i l 0.
Proof.
  revert i. induction l as [|x l IH]; intros [|i]; cbn [map nth]; try ring; try reflexivity. apply IH.
Qed.
Lemma scale_main N c amps pow i : amplitudes N amps -> 0 < c -> born (map (Qmult c) amps) pow i == born amps pow i.
Proof.
  intros HA Hc. unfold born. rewrite (qpow_proper _ _ pow (nth_scale c amps i)), qpow_mul.
  assert (E : qsum (map (fun a => qpow a pow) (map (Qmult c) amps)) == qpow c pow * qsum (map (fun a => qpow a pow) amps)).
  { clear HA. induction amps as [|x l IH]; cbn [map qsum]; [ring|]. rewrite IH, qpow_mul. ring. }
  rewrite E. pose proof (w_pos N pow amps HA). pose proof (qpow_pos c pow Hc). field. lra.
Qed.
