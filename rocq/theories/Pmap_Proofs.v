From Coq Require Import List ZArith Bool QArith Lia.
From Verif Require Import Base MCState_Model MCState_Proofs Metro_Model Metro_Spec Metro_Proofs Pmap_Model Pmap_Spec.
Import ListNotations.
Open Scope Z_scope.

(** ** Construction *)
Lemma least_of m n t : 0 < m -> (m | t) -> n <= t < n + m -> least_multiple m n t.
Proof.
  intros Hm D H. split; [exact D|]. split; [lia|]. intros u [k ->] Hu. destruct D as [j ->].
  assert (j < k + 1) by nia. nia.
Qed.

Lemma chains_total n_nodes n_devices n dt : 0 < n_nodes -> 0 < n_devices -> 0 < n ->
  exists s, pmap_sampler_make true n_nodes n_devices (Some (Some n)) None None dt = Ok s /\
    ps_chains_per_rank s = ps_chains_per_device s * n_devices /\
    least_multiple (n_devices * n_nodes) n (ps_n_chains n_nodes s).
Proof.
  intros H1 H2 H3. unfold pmap_sampler_make, pmap_pre_init, parent_pre_init, pre_init. cbn [bind negb andb fst snd].
  set (a := Z.max (ceil_div n n_nodes) 1). set (b := Z.max (ceil_div a n_devices) 1).
  eexists. split; [reflexivity|]. cbn [ps_chains_per_rank ps_chains_per_device ps_n_chains].
  rewrite Z.div_mul by lia. split; [reflexivity|].
  pose proof (ceil_div_bounds n n_nodes H1). pose proof (ceil_div_pos n n_nodes H3 H1).
  assert (Ea : a = ceil_div n n_nodes) by (unfold a; lia).
  assert (0 < a) by lia. pose proof (ceil_div_bounds a n_devices H2). pose proof (ceil_div_pos a n_devices ltac:(lia) H2).
  assert (Eb : b = ceil_div a n_devices) by (unfold b; lia). rewrite <- Ea in *. rewrite <- Eb in *.
  unfold ps_n_chains. cbn [ps_chains_per_rank]. apply least_of; [nia| |].
  - exists b. ring.
  - assert (b * n_devices <= a + n_devices - 1) by lia. assert (a * n_nodes <= n + n_nodes - 1) by lia.
    assert (b * n_devices * n_nodes <= (a + n_devices - 1) * n_nodes) by (apply Z.mul_le_mono_nonneg_r; lia).
    assert (a * n_nodes <= b * n_devices * n_nodes) by (apply Z.mul_le_mono_nonneg_r; lia). nia.
Qed.

Lemma chains_default n_nodes n_devices dt : 0 < n_nodes -> 0 < n_devices ->
  exists s, pmap_sampler_make true n_nodes n_devices None None None dt = Ok s /\
    ps_chains_per_rank s = ps_chains_per_device s * n_devices /\
    least_multiple (n_devices * n_nodes) 16 (ps_n_chains n_nodes s).
Proof. intros H1 H2. exact (chains_total n_nodes n_devices 16 dt H1 H2 ltac:(lia)). Qed.

Lemma chains_rank n_nodes n_devices c dt : 0 < n_devices -> 0 < c ->
  exists s, pmap_sampler_make true n_nodes n_devices None (Some (Some c)) None dt = Ok s /\
    ps_chains_per_rank s = ps_chains_per_device s * n_devices /\
    least_multiple n_devices c (ps_chains_per_rank s).
Proof.
  intros H2 H3. unfold pmap_sampler_make, pmap_pre_init, parent_pre_init. cbn [bind negb andb fst snd].
  set (b := Z.max (ceil_div c n_devices) 1).
  eexists. split; [reflexivity|]. cbn [ps_chains_per_rank ps_chains_per_device].
  rewrite Z.div_mul by lia. split; [reflexivity|].
  pose proof (ceil_div_bounds c n_devices H2). pose proof (ceil_div_pos c n_devices H3 H2).
  assert (Eb : b = ceil_div c n_devices) by (unfold b; lia). rewrite <- Eb in *.
  apply least_of; [lia| |lia]. exists b. ring.
Qed.

Lemma chains_device n_nodes n_devices d dt : 0 < n_devices ->
  exists s, pmap_sampler_make true n_nodes n_devices None None (Some d) dt = Ok s /\
    ps_chains_per_device s = d /\ ps_chains_per_rank s = d * n_devices.
Proof.
  intros H. eexists. split; [reflexivity|]. cbn [ps_chains_per_rank ps_chains_per_device fst snd]. rewrite Z.div_mul by lia. auto.
Qed.

Lemma both_main experimental n_nodes n_devices a b d dt : a <> None \/ b <> None ->
  pmap_sampler_make experimental n_nodes n_devices a b (Some d) dt = Err ValueError.
Proof. intros H. destruct a, b; try reflexivity. destruct H; congruence. Qed.
Lemma both_old experimental n_nodes n_devices a b d dt :
  pmap_sampler_make experimental n_nodes n_devices (Some (Some a)) (Some b) d dt = Err ValueError.
Proof. destruct d; reflexivity. Qed.

Lemma experimental_main n_nodes n_devices a b d dt s :
  pmap_sampler_make false n_nodes n_devices a b d dt = s -> exists e, s = Err e.
Proof.
  intros <-. unfold pmap_sampler_make. destruct (pmap_pre_init n_nodes n_devices a b d); cbn [bind]; eexists; reflexivity.
Qed.

Lemma nearest_refuted : exists n_nodes n_devices n s, 0 < n_nodes /\ 0 < n_devices /\ 0 < n /\
  pmap_sampler_make true n_nodes n_devices (Some (Some n)) None None None = Ok s /\
  ~ nearest_multiple (n_devices * n_nodes) n (ps_n_chains n_nodes s).
Proof.
  exists 1, 4, 5. eexists. split; [lia|]. split; [lia|]. split; [lia|]. split; [vm_compute; reflexivity|].
  intros [_ H]. specialize (H 4 ltac:(exists 1; lia)). vm_compute in H. congruence.
Qed.
Lemma never_warned experimental n_nodes n_devices a b d dt s :
  pmap_sampler_make experimental n_nodes n_devices a b d dt = Ok s -> ps_warned s = false.
Proof.
  unfold pmap_sampler_make, pmap_pre_init.
  match goal with |- context [if ?c then Err ValueError else _] => destruct c end; [discriminate|].
  destruct (parent_pre_init n_nodes a b) as [kw|e]; cbn [bind]; [|discriminate].
  destruct (match d with Some d0 => Ok d0 | None => match kw with Some c => Ok (Z.max (ceil_div c n_devices) 1) | None => Err TypeError end end);
    cbn [bind fst snd]; [|discriminate].
  destruct experimental; [|discriminate]. intros E. injection E as <-. cbn [ps_warned]. rewrite Z.eqb_refl. reflexivity.
Qed.
Lemma warn_refuted : exists n_nodes n_devices n s, 0 < n_nodes /\ 0 < n_devices /\ 0 < n /\
  pmap_sampler_make true n_nodes n_devices (Some (Some n)) None None None = Ok s /\
  ps_n_chains n_nodes s <> n /\ ps_warned s = false.
Proof.
  exists 1, 4, 5. eexists. split; [lia|]. split; [lia|]. split; [lia|]. split; [vm_compute; reflexivity|].
  split; [|reflexivity]. vm_compute. congruence.
Qed.
Lemma dtype_refuted : exists n_nodes n_devices dt s,
  pmap_sampler_make true n_nodes n_devices None None None (Some dt) = Ok s /\ ps_dtype s = dt /\ samples_dtype s <> ps_dtype s.
Proof. exists 1, 1, (OtherType 0). eexists. split; [vm_compute; reflexivity|]. split; [reflexivity|]. discriminate. Qed.
Lemma dtype_default experimental n_nodes n_devices a b d s :
  pmap_sampler_make experimental n_nodes n_devices a b d None = Ok s -> samples_dtype s = ps_dtype s.
Proof.
  unfold pmap_sampler_make. destruct (pmap_pre_init n_nodes n_devices a b d); cbn [bind]; [|discriminate].
  destruct experimental; [|discriminate]. intros E. injection E as <-. reflexivity.
Qed.
Lemma zero_refuted : exists n_nodes n_devices d s, 0 < n_nodes /\ 0 < n_devices /\
  pmap_sampler_make true n_nodes n_devices None None (Some d) None = Ok s /\ ps_n_chains n_nodes s <= 0.
Proof. exists 1, 2, 0. eexists. split; [lia|]. split; [lia|]. split; [vm_compute; reflexivity|]. vm_compute. congruence. Qed.

(** ** Sampling *)
Open Scope nat_scope.
Section S.
  Context {Cfg Par R Key RS : Type}.
  Variable M : metro Cfg Par R Key RS.
  Variable splitn : Key -> nat -> list Key.
  Hypothesis Hsh : shapes_ok M.
  Hypothesis Hsplit : forall k n, length (splitn k n) = n.

  Lemma ops_map os : forall ss : list (mstate Cfg Key RS), p_ops M ss os = map (fun s => do_ops M s os) ss.
  Proof.
    induction os as [|o os IH]; intros ss.
    - cbn. symmetry. apply map_id.
    - unfold p_ops in *. cbn [fold_left]. rewrite IH. unfold do_ops. cbn [fold_left].
      destruct o; cbn [p_op do_op]; unfold p_reset, p_next, p_chain; cbn [fst snd]; rewrite ?map_map; reflexivity.
  Qed.

  Lemma states_main n_devices p key os :
    p_ops M (p_init M splitn n_devices p key) os
    = map (fun k => do_ops M (init_state M p k) os) (splitn key n_devices).
  Proof. rewrite ops_map. unfold p_init. rewrite map_map. reflexivity. Qed.

  Lemma concat_nth {A} (ls : list (list A)) n d c : Forall (fun l => length l = n) ls -> c < n -> d < length ls ->
    nth_error (concat ls) (d * n + c) = nth_error (nth d ls []) c.
  Proof.
    intros H Hc. revert d. induction H as [|l ls Hl H IH]; intros d Hd; [cbn in Hd; lia|].
    cbn [concat]. destruct d as [|d].
    - cbn [nth Nat.mul Nat.add]. apply nth_error_app1. lia.
    - cbn [nth]. rewrite nth_error_app2 by (cbn; lia). cbn [length] in Hd. rewrite <- IH by lia. f_equal. cbn. lia.
  Qed.
  Lemma concat_length {A} (ls : list (list A)) n : Forall (fun l => length l = n) ls -> length (concat ls) = length ls * n.
  Proof. induction 1 as [|l ls Hl H IH]; [reflexivity|]. cbn [concat]. rewrite app_length, IH, Hl. reflexivity. Qed.

  Lemma chain_lengths p n : forall s, length (s_cfg s) = m_chains M ->
    length (fst (sample_chain M p n s)) = n /\ Forall (fun x => length x = m_chains M) (fst (sample_chain M p n s)).
  Proof.
    intros s Hs.
    pose proof (chain_valid M Hsh (fun _ => True) ltac:(constructor; intros; apply Forall_forall; auto) p n s
      ltac:(apply Forall_forall; auto) Hs) as [A [B _]].
    split; [exact B|]. eapply Forall_impl; [|exact A]. intros a [H _]. exact H.
  Qed.
  Lemma run_length p key os : length (s_cfg (do_ops M (init_state M p key) os)) = m_chains M.
  Proof. exact (proj1 (proj2 (rep_run M Hsh p key os))). Qed.

  (** the samples of the sampler are those of the devices' samplers *)
  Lemma samples_main n_devices p key os p' n :
    let keys := splitn key n_devices in
    let xs := fst (p_chain M p' n (p_ops M (p_init M splitn n_devices p key) os)) in
    length xs = n /\
    forall t, t < n -> exists batch, nth_error xs t = Some batch /\ length batch = n_devices * m_chains M /\
      forall d c k, nth_error keys d = Some k -> c < m_chains M ->
        chain_of (m_chains M) d c batch =
        nth_error (nth t (fst (sample_chain M p' n (do_ops M (init_state M p k) os))) []) c.
  Proof.
    intros keys xs. unfold xs, p_chain. cbn [fst]. split; [rewrite map_length, seq_length; reflexivity|].
    intros t Ht. rewrite states_main. fold keys. rewrite !map_map.
    set (L := fun k => nth t (fst (sample_chain M p' n (do_ops M (init_state M p k) os))) []).
    exists (concat (map L keys)).
    assert (FL : Forall (fun l => length l = m_chains M) (map L keys)).
    { apply Forall_forall. intros l Hl. apply in_map_iff in Hl. destruct Hl as (k & <- & _). unfold L.
      destruct (chain_lengths p' n _ (run_length p k os)) as [A B].
      rewrite Forall_forall in B. apply B. apply nth_In. lia. }
    split; [|split].
    - rewrite nth_error_map. rewrite (nth_error_nth' _ 0) by (rewrite seq_length; exact Ht). rewrite seq_nth by exact Ht.
      cbn [option_map Nat.add]. rewrite map_map. reflexivity.
    - rewrite (concat_length _ _ FL), map_length. unfold keys. rewrite Hsplit. reflexivity.
    - intros d c k Hk Hc. unfold chain_of.
      assert (Hd : d < length keys) by (apply nth_error_Some; congruence).
      rewrite (concat_nth _ _ _ _ FL Hc) by (rewrite map_length; exact Hd).
      rewrite (nth_indep _ [] (L k)) by (rewrite map_length; exact Hd). rewrite map_nth.
      rewrite (nth_error_nth _ _ k Hk). reflexivity.
  Qed.

  Lemma next_main n_devices p key os p' :
    let keys := splitn key n_devices in
    let batch := snd (p_next M p' (p_ops M (p_init M splitn n_devices p key) os)) in
    length batch = n_devices * m_chains M /\
    forall d c k, nth_error keys d = Some k -> c < m_chains M ->
      chain_of (m_chains M) d c batch = nth_error (snd (sample_next M p' (do_ops M (init_state M p k) os))) c.
  Proof.
    intros keys batch. unfold batch, p_next. cbn [snd]. rewrite states_main. fold keys. rewrite !map_map.
    set (L := fun k => snd (sample_next M p' (do_ops M (init_state M p k) os))).
    assert (FL : Forall (fun l => length l = m_chains M) (map L keys)).
    { apply Forall_forall. intros l Hl. apply in_map_iff in Hl. destruct Hl as (k & <- & _). unfold L.
      pose proof (run_length p k (os ++ [Next p'])) as E. unfold do_ops in *. rewrite fold_left_app in E. exact E. }
    split.
    - rewrite (concat_length _ _ FL), map_length. unfold keys. rewrite Hsplit. reflexivity.
    - intros d c k Hk Hc. unfold chain_of.
      assert (Hd : d < length keys) by (apply nth_error_Some; congruence).
      rewrite (concat_nth _ _ _ _ FL Hc) by (rewrite map_length; exact Hd).
      rewrite (nth_indep _ [] (L k)) by (rewrite map_length; exact Hd). rewrite map_nth.
      rewrite (nth_error_nth _ _ k Hk). reflexivity.
  Qed.

  Lemma sum_by_app {A} (f : A -> nat) l l' : sum_by f (l ++ l') = sum_by f l + sum_by f l'.
  Proof. induction l; cbn; [reflexivity|]. unfold sum_by in *. rewrite IHl. lia. Qed.

  Lemma accepted_main n_devices p keys os :
    p_n_accepted (p_world M splitn n_devices p keys os)
    = total (fun k => count (run_log (ref_run M p k os))) (all_keys splitn n_devices keys).
  Proof.
    rewrite <- (acc_total M Hsh). unfold p_n_accepted, p_world, n_accepted, world, all_keys.
    induction keys as [|k keys IH]; [reflexivity|]. cbn [map flat_map]. rewrite map_app.
    change (fold_right (fun s a => s_acc s + a) 0 ?l) with (sum_by s_acc l) in *.
    rewrite sum_by_app, <- IH. cbn [sum_by fold_right]. rewrite states_main. reflexivity.
  Qed.

  Lemma steps_const p os ks : sum_by s_steps (map (fun k => do_ops M (init_state M p k) os) ks) = length ks * planned M os 0.
  Proof.
    induction ks as [|k ks IH]; [reflexivity|]. cbn [map sum_by fold_right length Nat.mul].
    change (fold_right (fun a n => s_steps a + n) 0 ?l) with (sum_by (@s_steps Cfg Key RS) l). rewrite IH. f_equal.
    rewrite planned_steps. f_equal. unfold init_state. destruct (m_split2 M k) as [a b]. destruct (m_reset_chains M); [reflexivity|].
    destruct (m_split2 M a) as [c d]. reflexivity.
  Qed.

  Lemma all_keys_length n_devices keys : length (all_keys splitn n_devices keys) = length keys * n_devices.
  Proof. unfold all_keys. induction keys; [reflexivity|]. cbn [flat_map length Nat.mul]. rewrite app_length, IHkeys, Hsplit. reflexivity. Qed.

  Lemma total_steps p os ks : total (fun k => length (run_log (ref_run M p k os))) ks = length ks * planned M os 0.
  Proof. induction ks as [|k ks IH]; [reflexivity|]. cbn [total fold_right length Nat.mul]. unfold total in IH. rewrite IH, same_steps by exact Hsh. lia. Qed.

  Lemma steps_main n_devices p keys os r : r < length keys ->
    p_n_steps (p_world M splitn n_devices p keys os) r
    = Some (total (fun k => length (run_log (ref_run M p k os))) (all_keys splitn n_devices keys)).
  Proof.
    intros Hr. rewrite total_steps, all_keys_length. unfold p_n_steps, p_world. rewrite map_length.
    destruct keys as [|k0 ks0] eqn:Ek; [cbn in Hr; lia|]. rewrite <- Ek in *. clear Ek.
    rewrite (map_nth_error _ _ _ (nth_error_nth' keys k0 Hr)). cbn [option_map]. f_equal.
    rewrite states_main, steps_const, Hsplit. lia.
  Qed.

  Lemma le_main n_devices p keys os r n : p_n_steps (p_world M splitn n_devices p keys os) r = Some n ->
    p_n_accepted (p_world M splitn n_devices p keys os) <= n.
  Proof.
    intros H. assert (Hr : r < length keys).
    { unfold p_n_steps in H. destruct (nth_error (p_world M splitn n_devices p keys os) r) eqn:E; [|discriminate].
      assert (r < length (p_world M splitn n_devices p keys os)) by (apply nth_error_Some; congruence).
      unfold p_world in *. rewrite map_length in *. assumption. }
    rewrite steps_main in H by exact Hr. injection H as <-. rewrite accepted_main.
    unfold total. induction (all_keys splitn n_devices keys) as [|k ks IH]; [cbn; lia|].
    cbn [fold_right]. pose proof (count_le (run_log (ref_run M p k os))). lia.
  Qed.
  Lemma acceptance_main n_devices p keys os r q : p_acceptance (p_world M splitn n_devices p keys os) r = Some q ->
    (0 <= q <= 1)%Q.
  Proof.
    unfold p_acceptance. destruct (p_n_steps _ r) as [[|n]|] eqn:E; try discriminate.
    intros H. injection H as <-. pose proof (le_main n_devices p keys os r (S n) E) as Hle.
    split.
    - apply Qle_shift_div_l; [unfold Qlt; cbn; lia|]. rewrite Qmult_0_l. unfold Qle. cbn. lia.
    - apply Qle_shift_div_r; [unfold Qlt; cbn; lia|]. rewrite Qmult_1_l. unfold Qle. cbn. lia.
  Qed.

  Lemma valid_main (inH : Cfg -> Prop) n_devices p key os p' n : rule_valid M inH -> started M os ->
    Forall (fun x => length x = n_devices * m_chains M /\ Forall inH x)
      (fst (p_chain M p' n (p_ops M (p_init M splitn n_devices p key) os))).
  Proof.
    intros Hv Hst. apply Forall_forall. intros x Hx.
    destruct (samples_main n_devices p key os p' n) as [HL HS].
    destruct (In_nth_error _ _ Hx) as [t Et].
    assert (Ht : t < n) by (rewrite <- HL; apply nth_error_Some; congruence).
    destruct (HS t Ht) as (b & Eb & Lb & _). rewrite Eb in Et. injection Et as ->. split; [exact Lb|].
    unfold p_chain in Hx. cbn [fst] in Hx. apply in_map_iff in Hx. destruct Hx as (t' & <- & Ht'). apply in_seq in Ht'.
    rewrite states_main, !map_map. apply Forall_concat. apply Forall_forall. intros l Hl.
    apply in_map_iff in Hl. destruct Hl as (k & <- & _).
    destruct (chain_valid M Hsh inH Hv p' n _ (run_valid M Hsh inH Hv p k os Hst) (run_length p k os)) as [A [B _]].
    rewrite Forall_forall in A. apply A. apply nth_In. lia.
  Qed.
End S.
