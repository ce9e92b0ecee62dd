(** * Properties of the Metropolis samplers: C32 (invariants), C36 (counters) *)
From Coq Require Import List ZArith Bool Lia QArith.
From Verif Require Import Base Metro_Model Metro_Spec Metro_Proofs.
Import ListNotations.
Open Scope nat_scope.

(** ** C32 *)

(** At every point of every run (any sequence [os] of resets, single steps and
    chains, with parameters that may differ from call to call) of every rank, the
    batch holds one configuration of the Hilbert space per chain. *)
Theorem C32_configurations :
  forall Cfg Par R Key RS (M : metro Cfg Par R Key RS) (inH : Cfg -> Prop) p key os,
    shapes_ok M -> rule_valid M inH -> started M os ->
    let s := do_ops M (init_state M p key) os in
    length (s_cfg s) = m_chains M /\ Forall inH (s_cfg s).
Proof.
  exact (fun _ _ _ _ _ M inH p key os Hs Hv Hst =>
           conj (proj1 (proj2 (rep_run M Hs p key os))) (run_valid M Hs inH Hv p key os Hst)).
Qed.
Print Assumptions C32_configurations.

(** ... and so do the samples handed out by [sample]. *)
Theorem C32_samples :
  forall Cfg Par R Key RS (M : metro Cfg Par R Key RS) (inH : Cfg -> Prop) p key os p' n,
    shapes_ok M -> rule_valid M inH -> started M os ->
    let xs := fst (sample_chain M p' n (do_ops M (init_state M p key) os)) in
    length xs = n /\
    Forall (fun x => length x = m_chains M /\ Forall inH x) xs.
Proof.
  exact (fun _ _ _ _ _ M inH p key os p' n Hs Hv Hst =>
    let H := chain_valid M Hs inH Hv p' n _ (run_valid M Hs inH Hv p key os Hst)
                         (proj1 (proj2 (rep_run M Hs p key os))) in
    conj (proj1 (proj2 H)) (proj1 H)).
Qed.
Print Assumptions C32_samples.

(** Inside [sample_next], after any number [k] of sweeps, the cached
    log-probabilities are those of the cached configurations under the parameters
    of the call. *)
Theorem C32_cached_log_prob :
  forall Cfg Par R Key RS (M : metro Cfg Par R Key RS) p key os p' k,
    shapes_ok M ->
    let s := do_ops M (init_state M p key) os in
    let l := sweeps M p' (s_rule s) k (loop_start M p' s) in
    l_lp l = map (m_logp M p') (l_cfg l).
Proof.
  exact (fun _ _ _ _ _ M p key os p' k Hs =>
    proj1 (proj2 (sweeps_ref M Hs p' _ k (loop_start M p' (do_ops M (init_state M p key) os))
                    (proj1 (proj2 (rep_run M Hs p key os))) eq_refl))).
Qed.
Print Assumptions C32_cached_log_prob.

(** [n_accepted <= n_steps], and the acceptance ratio lies in [0,1]. *)
Theorem C32_accepted_le_steps :
  forall Cfg Par R Key RS (M : metro Cfg Par R Key RS) p keys os r,
    shapes_ok M ->
    (forall n, n_steps (world M p keys os) r = Some n -> n_accepted (world M p keys os) <= n) /\
    (forall q, acceptance (world M p keys os) r = Some q -> (0 <= q <= 1)%Q).
Proof.
  exact (fun _ _ _ _ _ M p keys os r Hs =>
    conj (fun n => acc_le_steps M Hs p keys os r n) (fun q => acceptance_range M Hs p keys os r q)).
Qed.
Print Assumptions C32_accepted_le_steps.

(** A concrete sampler: two chains of one spin (values -1, 1), a rule flipping
    spins, a generator whose key is a counter; a proposal is accepted when the
    drawn number is below the difference of the log-probabilities plus four. *)
Definition spin_metro (rc : bool) : metro Z Z Z Z unit :=
  {| m_chains := 2; m_sweeps := 2; m_reset_chains := rc; m_zero := 0%Z;
     m_logp := fun p x => (p * x)%Z;
     m_trans := fun _ _ _ x => (map Z.opp x, None);
     m_random := fun _ _ k => [(if Z.even k then 1 else -1)%Z; 1%Z];
     m_rinit := fun _ _ => tt; m_rreset := fun _ x => x;
     m_unif := fun k n => map (fun i => Z.modulo (k + Z.of_nat i) 4) (seq 0 n);
     m_split2 := fun k => (k + 1, k + 2)%Z;
     m_split3 := fun k => (k + 1, k + 2, k + 3)%Z;
     m_accept := fun u a b c => Z.ltb u (a - b + match c with Some c => c | None => 4 end)%Z |}.

Definition spin_inH (x : Z) : Prop := x = 1%Z \/ x = (-1)%Z.

Example spin_shapes rc : shapes_ok (spin_metro rc).
Proof.
  constructor; cbn; intros; try reflexivity.
  - rewrite map_length. assumption.
  - discriminate.
  - rewrite map_length, seq_length. reflexivity.
Qed.

Example spin_valid rc : rule_valid (spin_metro rc) spin_inH.
Proof.
  constructor; cbn; intros.
  - unfold spin_inH. constructor; [destruct (Z.even k); auto|]. constructor; [auto|constructor].
  - apply Forall_map. eapply Forall_impl; [|eassumption]. unfold spin_inH. intros z [->| ->]; auto.
Qed.

(** A run in which some moves are accepted and some rejected. *)
Example spin_run :
  s_cfg (do_ops (spin_metro false) (init_state (spin_metro false) 1%Z 0%Z)
           [Next 1%Z; Reset 2%Z; Chain 1%Z 3]) = [(-1)%Z; (-1)%Z] /\
  n_accepted (world (spin_metro false) 1%Z [0%Z; 5%Z] [Next 1%Z; Reset 2%Z; Chain 1%Z 3]) = 12 /\
  n_steps (world (spin_metro false) 1%Z [0%Z; 5%Z] [Next 1%Z; Reset 2%Z; Chain 1%Z 3]) 1 = Some 24.
Proof. vm_compute. auto. Qed.

(** Without [started] the claim is false: with [reset_chains=True], [sample_next]
    called without a state starts from the zeros of [init_state] (its documentation
    says it resets), and returns configurations outside the Hilbert space. *)
Theorem C32_sample_next_without_state_refuted :
  exists (M : metro Z Z Z Z unit) (inH : Z -> Prop) p key,
    shapes_ok M /\ rule_valid M inH /\
    ~ Forall inH (snd (sample_next_fresh M p key)).
Proof.
  exists (spin_metro true), spin_inH, 1%Z, 0%Z.
  split; [exact (spin_shapes true)|]. split; [exact (spin_valid true)|].
  intros H. apply Forall_inv in H. destruct H as [H|H]; vm_compute in H; discriminate.
Qed.
Print Assumptions C32_sample_next_without_state_refuted.

(** ** C36 *)

(** For every number of ranks, [n_accepted] is the number of accepted moves and
    [n_steps] the number of attempted moves, over all ranks and chains, since the
    last reset; the chains themselves follow the reference run. *)
Theorem C36_counters :
  forall Cfg Par R Key RS (M : metro Cfg Par R Key RS) p keys os r,
    shapes_ok M -> r < length keys ->
    n_accepted (world M p keys os) =
      total (fun k => length (filter (fun b => b) (run_log (ref_run M p k os)))) keys /\
    n_steps (world M p keys os) r =
      Some (total (fun k => length (run_log (ref_run M p k os))) keys) /\
    map (fun s => s_cfg s) (world M p keys os) =
      map (fun k => run_batch (ref_run M p k os)) keys.
Proof.
  exact (fun _ _ _ _ _ M p keys os r Hs Hr =>
    conj (acc_total M Hs p keys os) (conj (steps_total M Hs p keys os r Hr)
      (batches_ref M Hs p keys os))).
Qed.
Print Assumptions C36_counters.

(** The numpy sampler, on one rank and between resets: starting from a reset
    state, one [sample_next] performs the reference moves, keeps the cached values
    equal to the model at the current configurations, and adds the right numbers
    to the counters.  What is missing from the full statement (counters since the
    last reset, any number of ranks) is false: see the next two theorems. *)
Theorem C36_numpy_partial :
  forall Cfg Par R Key RS (M : metro Cfg Par R Key RS) p s,
    shapes_ok M -> length (v_cfg s) = m_chains M ->
    v_lv s = map (m_logp M p) (v_cfg s) ->
    let r := moves M p (v_rule s) (m_sweeps M) (v_rng s) (v_cfg s) in
    let s' := np_next M 1 p s in
    v_cfg s' = snd r /\ length (v_cfg s') = m_chains M /\
    v_lv s' = map (m_logp M p) (v_cfg s') /\
    np_n_steps 1 s' = np_n_steps 1 s + length (fst r) /\
    np_n_accepted [s'] = np_n_accepted [s] + length (filter (fun b => b) (fst r)).
Proof. exact (fun _ _ _ _ _ M p s Hs => np_next_ref M Hs p s). Qed.
Print Assumptions C36_numpy_partial.

(** A reset gives a state the theorem applies to. *)
Theorem C36_numpy_reset_ready :
  forall Cfg Par R Key RS (M : metro Cfg Par R Key RS) p s,
    shapes_ok M -> length (v_cfg s) = m_chains M ->
    length (v_cfg (np_reset M p s)) = m_chains M /\
    v_lv (np_reset M p s) = map (m_logp M p) (v_cfg (np_reset M p s)).
Proof. exact (fun _ _ _ _ _ M p s Hs => np_reset_ok M Hs p s). Qed.
Print Assumptions C36_numpy_reset_ready.

(** Finding: resetting the numpy sampler does not zero its counters. *)
Theorem C36_numpy_reset_refuted :
  exists (M : metro Z Z Z Z unit) p key,
    shapes_ok M /\
    let s := np_reset M p (np_next M 1 p (np_reset M p (np_init M 0%Z p key))) in
    np_n_steps 1 s = 4 /\ np_n_accepted [s] = 1.
Proof. exists (spin_metro false), 1%Z, 1%Z. split; [exact (spin_shapes false)|]. vm_compute. auto. Qed.
Print Assumptions C36_numpy_reset_refuted.

(** Finding: on several ranks the numpy sampler counts every step once per rank
    too often: two ranks with two chains each, two sweeps: 8 moves attempted in
    total, 16 reported. *)
Theorem C36_numpy_ranks_refuted :
  exists (M : metro Z Z Z Z unit) p keys,
    shapes_ok M /\ length keys = 2 /\
    let w := map (fun key => np_next M 2 p (np_reset M p (np_init M 0%Z p key))) keys in
    total (fun key => length (fst (moves M p tt (m_sweeps M)
             (v_rng (np_reset M p (np_init M 0%Z p key)))
             (v_cfg (np_reset M p (np_init M 0%Z p key)))))) keys = 8 /\
    Forall (fun s => np_n_steps 2 s = 16) w.
Proof.
  exists (spin_metro false), 1%Z, [0%Z; 5%Z]. split; [exact (spin_shapes false)|].
  vm_compute. repeat constructor.
Qed.
Print Assumptions C36_numpy_ranks_refuted.

(** Finding: on several ranks [sample] of the numpy sampler raises (the array
    receiving the samples has room for the chains of all ranks). *)
Theorem C36_numpy_ranks_sample_refuted :
  exists (M : metro Z Z Z Z unit) p key,
    shapes_ok M /\
    np_chain M 2 p 1 (np_reset M p (np_init M 0%Z p key)) = Err ValueError.
Proof. exists (spin_metro false), 1%Z, 0%Z. split; [exact (spin_shapes false)|]. vm_compute. reflexivity. Qed.
Print Assumptions C36_numpy_ranks_sample_refuted.
