From Coq Require Import List ZArith Bool QArith Lia.
From Verif Require Import Base MCState_Model Metro_Model Metro_Spec Metro_Props Pmap_Model Pmap_Spec Pmap_Proofs.
Import ListNotations.

(** ** Number of chains *)

(** n_chains is rounded up to a multiple of the number of devices of all ranks. *)
Theorem C98_n_chains : forall n_nodes n_devices n dt, (0 < n_nodes)%Z -> (0 < n_devices)%Z -> (0 < n)%Z ->
  exists s, pmap_sampler_make true n_nodes n_devices (Some (Some n)) None None dt = Ok s /\
    ps_chains_per_rank s = (ps_chains_per_device s * n_devices)%Z /\
    least_multiple (n_devices * n_nodes) n (ps_n_chains n_nodes s).
Proof. exact chains_total. Qed.
Print Assumptions C98_n_chains.
Theorem C98_default : forall n_nodes n_devices dt, (0 < n_nodes)%Z -> (0 < n_devices)%Z ->
  exists s, pmap_sampler_make true n_nodes n_devices None None None dt = Ok s /\
    ps_chains_per_rank s = (ps_chains_per_device s * n_devices)%Z /\
    least_multiple (n_devices * n_nodes) 16 (ps_n_chains n_nodes s).
Proof. exact chains_default. Qed.
Print Assumptions C98_default.
Theorem C98_n_chains_per_rank : forall n_nodes n_devices c dt, (0 < n_devices)%Z -> (0 < c)%Z ->
  exists s, pmap_sampler_make true n_nodes n_devices None (Some (Some c)) None dt = Ok s /\
    ps_chains_per_rank s = (ps_chains_per_device s * n_devices)%Z /\
    least_multiple n_devices c (ps_chains_per_rank s).
Proof. exact chains_rank. Qed.
Print Assumptions C98_n_chains_per_rank.
Theorem C98_n_chains_per_device : forall n_nodes n_devices d dt, (0 < n_devices)%Z ->
  exists s, pmap_sampler_make true n_nodes n_devices None None (Some d) dt = Ok s /\
    ps_chains_per_device s = d /\ ps_chains_per_rank s = (d * n_devices)%Z.
Proof. exact chains_device. Qed.
Print Assumptions C98_n_chains_per_device.

(** Two of the three ways to give the number are refused; so is everything unless the
    experimental features are enabled. *)
Theorem C98_exclusive : forall experimental n_nodes n_devices a b d dt, a <> None \/ b <> None ->
  pmap_sampler_make experimental n_nodes n_devices a b (Some d) dt = Err ValueError.
Proof. exact both_main. Qed.
Print Assumptions C98_exclusive.
Theorem C98_exclusive_2 : forall experimental n_nodes n_devices a b d dt,
  pmap_sampler_make experimental n_nodes n_devices (Some (Some a)) (Some b) d dt = Err ValueError.
Proof. exact both_old. Qed.
Print Assumptions C98_exclusive_2.
Theorem C98_experimental : forall n_nodes n_devices a b d dt s,
  pmap_sampler_make false n_nodes n_devices a b d dt = s -> exists e, s = Err e.
Proof. exact experimental_main. Qed.
Print Assumptions C98_experimental.

(** The documentation says the nearest multiple; the warning meant for a changed number
    is never issued; the type asked for is not that of the samples; zero chains are
    accepted. *)
Theorem C98_nearest_refuted : exists n_nodes n_devices n s, (0 < n_nodes)%Z /\ (0 < n_devices)%Z /\ (0 < n)%Z /\
  pmap_sampler_make true n_nodes n_devices (Some (Some n)) None None None = Ok s /\
  ~ nearest_multiple (n_devices * n_nodes) n (ps_n_chains n_nodes s).
Proof. exact nearest_refuted. Qed.
Print Assumptions C98_nearest_refuted.
Theorem C98_warning_refuted : exists n_nodes n_devices n s, (0 < n_nodes)%Z /\ (0 < n_devices)%Z /\ (0 < n)%Z /\
  pmap_sampler_make true n_nodes n_devices (Some (Some n)) None None None = Ok s /\
  ps_n_chains n_nodes s <> n /\ ps_warned s = false.
Proof. exact warn_refuted. Qed.
Print Assumptions C98_warning_refuted.
Theorem C98_never_warned : forall experimental n_nodes n_devices a b d dt s,
  pmap_sampler_make experimental n_nodes n_devices a b d dt = Ok s -> ps_warned s = false.
Proof. exact never_warned. Qed.
Print Assumptions C98_never_warned.
Theorem C98_dtype_refuted : exists n_nodes n_devices dt s,
  pmap_sampler_make true n_nodes n_devices None None None (Some dt) = Ok s /\ ps_dtype s = dt /\ samples_dtype s <> ps_dtype s.
Proof. exact dtype_refuted. Qed.
Print Assumptions C98_dtype_refuted.
Theorem C98_dtype_default : forall experimental n_nodes n_devices a b d s,
  pmap_sampler_make experimental n_nodes n_devices a b d None = Ok s -> samples_dtype s = ps_dtype s.
Proof. exact dtype_default. Qed.
Print Assumptions C98_dtype_default.
Theorem C98_zero_refuted : exists n_nodes n_devices d s, (0 < n_nodes)%Z /\ (0 < n_devices)%Z /\
  pmap_sampler_make true n_nodes n_devices None None (Some d) None = Ok s /\ (ps_n_chains n_nodes s <= 0)%Z.
Proof. exact zero_refuted. Qed.
Print Assumptions C98_zero_refuted.

Open Scope nat_scope.
(** ** Sampling: every device is a Metropolis sampler of its own, with its own key *)
Theorem C98_samples : forall Cfg Par R Key RS (M : metro Cfg Par R Key RS) splitn, shapes_ok M ->
  (forall k n, length (splitn k n) = n) -> forall n_devices p key os p' n,
  let keys := splitn key n_devices in
  let xs := fst (p_chain M p' n (p_ops M (p_init M splitn n_devices p key) os)) in
  length xs = n /\
  forall t, t < n -> exists batch, nth_error xs t = Some batch /\ length batch = n_devices * m_chains M /\
    forall d c k, nth_error keys d = Some k -> c < m_chains M ->
      chain_of (m_chains M) d c batch =
      nth_error (nth t (fst (sample_chain M p' n (do_ops M (init_state M p k) os))) []) c.
Proof. exact @samples_main. Qed.
Print Assumptions C98_samples.
Theorem C98_sample_next : forall Cfg Par R Key RS (M : metro Cfg Par R Key RS) splitn, shapes_ok M ->
  (forall k n, length (splitn k n) = n) -> forall n_devices p key os p',
  let keys := splitn key n_devices in
  let batch := snd (p_next M p' (p_ops M (p_init M splitn n_devices p key) os)) in
  length batch = n_devices * m_chains M /\
  forall d c k, nth_error keys d = Some k -> c < m_chains M ->
    chain_of (m_chains M) d c batch = nth_error (snd (sample_next M p' (do_ops M (init_state M p k) os))) c.
Proof. exact @next_main. Qed.
Print Assumptions C98_sample_next.
Theorem C98_configurations : forall Cfg Par R Key RS (M : metro Cfg Par R Key RS) splitn, shapes_ok M ->
  (forall k n, length (splitn k n) = n) -> forall inH n_devices p key os p' n, rule_valid M inH -> started M os ->
  Forall (fun x => length x = n_devices * m_chains M /\ Forall inH x)
    (fst (p_chain M p' n (p_ops M (p_init M splitn n_devices p key) os))).
Proof. exact @valid_main. Qed.
Print Assumptions C98_configurations.

(** ** Counters: all moves of all devices of all ranks since the last reset *)
Theorem C98_n_steps : forall Cfg Par R Key RS (M : metro Cfg Par R Key RS) splitn, shapes_ok M ->
  (forall k n, length (splitn k n) = n) -> forall n_devices p keys os r, r < length keys ->
  p_n_steps (p_world M splitn n_devices p keys os) r
  = Some (total (fun k => length (run_log (ref_run M p k os))) (all_keys splitn n_devices keys)).
Proof. exact @steps_main. Qed.
Print Assumptions C98_n_steps.
Theorem C98_n_accepted : forall Cfg Par R Key RS (M : metro Cfg Par R Key RS) splitn, shapes_ok M ->
  forall n_devices p keys os,
  p_n_accepted (p_world M splitn n_devices p keys os)
  = total (fun k => count (run_log (ref_run M p k os))) (all_keys splitn n_devices keys).
Proof. exact @accepted_main. Qed.
Print Assumptions C98_n_accepted.
Theorem C98_acceptance : forall Cfg Par R Key RS (M : metro Cfg Par R Key RS) splitn, shapes_ok M ->
  (forall k n, length (splitn k n) = n) -> forall n_devices p keys os r q,
  p_acceptance (p_world M splitn n_devices p keys os) r = Some q -> (0 <= q <= 1)%Q.
Proof. exact @acceptance_main. Qed.
Print Assumptions C98_acceptance.

(** Concrete cases: five chains on four devices; two devices with two chains each. *)
Example C98_ex_chains : pmap_sampler_make true 1 4 (Some (Some 5%Z)) None None None
  = Ok (PmapSampler 8 Float64 2 Float64 false).
Proof. reflexivity. Qed.
Definition count_split (k : Z) (n : nat) : list Z := map (fun i => (10 * k + Z.of_nat i)%Z) (seq 0 n).
Example C98_ex_split : forall k n, length (count_split k n) = n.
Proof. intros. unfold count_split. rewrite map_length. apply seq_length. Qed.
Example C98_ex_run : fst (p_chain (spin_metro false) 1%Z 2 (p_ops (spin_metro false) (p_init (spin_metro false) count_split 2 1%Z 3%Z) [Reset 1%Z]))
  = [[1; -1; -1; 1]; [-1; -1; -1; 1]]%Z /\ shapes_ok (spin_metro false) /\ rule_valid (spin_metro false) spin_inH /\
  started (spin_metro false) [Reset 1%Z].
Proof. split; [vm_compute; reflexivity|]. split; [apply spin_shapes|]. split; [apply spin_valid|left; reflexivity]. Qed.
