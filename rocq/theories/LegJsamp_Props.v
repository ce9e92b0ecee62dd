(** * C114: the legacy samplers of jax machines *)
From Coq Require Import List ZArith Bool Reals Permutation Lia.
From Verif Require Import Base Rules_Model LegSamp_Model LegSamp_Spec Keys_Model Keys_Spec LegJsamp_Model LegJsamp_Spec.
From Verif Require LegJsamp_Proofs LegJsamp_Keys LegJsamp_Cases.
Import ListNotations.
Open Scope nat_scope.

(** Construction: a negative number of chains or sweep size is refused; else every chain has a
    random state, the power is 2 and the sweep size the number of sites unless given *)
Theorem C114_init : forall Par size rd (p : Par) k n sw,
  ((exists s, make size rd p k n sw = Ok s) <-> (0 <= n)%Z /\ (forall v, sw = Some v -> 0 <= v)%Z) /\
  (~ ((0 <= n)%Z /\ (forall v, sw = Some v -> 0 <= v)%Z) -> make size rd p k n sw = Err ValueError) /\
  forall s, make size rd p k n sw = Ok s ->
    j_par s = p /\ j_pow s = 2%R /\ j_chains s = n /\ j_shape s = n /\ length (j_state s) = Z.to_nat n /\
    j_state s = snd (scan_random rd (Z.to_nat n) k) /\ j_key s = fst (scan_random rd (Z.to_nat n) k) /\
    j_sweep s = match sw with Some v => v | None => Z.of_nat size end.
Proof. exact (@LegJsamp_Proofs.make_main). Qed.
Print Assumptions C114_init.
Example C114_init_case : exists s, make 2 (jlocal_random LegJsamp_Cases.rng0 [1%Z; (-1)%Z] 2) tt (Seed 0) 3 None = Ok s.
Proof. eexists. reflexivity. Qed.

(** generate_samples(n): n sets of configurations, one for every chain.  Each is sweep_size
    Metropolis steps, with |psi|^machine_pow at the present parameters, after the one before;
    the first after the state of the sampler (a new one if init_random).  The last is kept. *)
Theorem C114_generate : forall Par logv unif mv rd n b (s : jsmp Par),
  0 < n -> (b = true -> j_chains s = j_shape s /\ (0 <= j_shape s)%Z) ->
  let s0 := fst (reset rd b s) in
  let s1 := fst (generate logv unif mv rd n b s) in
  exists samples, snd (generate logv unif mv rd n b s) = Ok (Some samples) /\ length samples = n /\
    Forall (fun xs => length xs = length (j_state s0)) samples /\
    follows (linked logv unif mv (j_par s) (j_pow s) (Z.to_nat (j_sweep s))) (j_state s0) samples /\
    j_state s1 = last samples [] /\
    j_par s1 = j_par s /\ j_sweep s1 = j_sweep s /\ j_pow s1 = j_pow s /\ j_chains s1 = j_chains s /\ j_shape s1 = j_shape s.
Proof. exact (@LegJsamp_Proofs.generate_main). Qed.
Print Assumptions C114_generate.
Example C114_generate_case : let s := JSmp tt (Seed 0) [[1%Z]; [2%Z]] 1 2%R 2 2 in j_chains s = j_shape s /\ (0 <= j_shape s)%Z.
Proof. cbn. lia. Qed.

(** next() is generate_samples(1) *)
Theorem C114_next : forall Par logv unif mv rd (s : jsmp Par), next logv unif mv s = generate logv unif mv rd 1 false s.
Proof. exact (@LegJsamp_Proofs.next_is_generate). Qed.
Print Assumptions C114_next.

(** A reset without init_random changes nothing *)
Theorem C114_reset : forall Par rd (s : jsmp Par), reset rd false s = (s, Ok tt).
Proof. exact (@LegJsamp_Proofs.reset_false). Qed.
Print Assumptions C114_reset.

(** All proposals of the kernels of numpy machines (C110) occur: any site with any of the other values, any pair; and any configuration as random state *)
Theorem C114_local_all_proposals : forall ls size k i j, i < size -> j < length ls - 1 -> exists r, bounded r /\
  forall x, jlocal_move r ls size k x = leg_local_move (leg_local_states ls) i j x.
Proof. exact LegJsamp_Cases.local_all. Qed.
Print Assumptions C114_local_all_proposals.
Theorem C114_exchange_all_proposals : forall cs k c, In c cs -> exists r, bounded r /\
  forall x, jexch_move r cs k x = leg_exchange_move c x.
Proof. exact LegJsamp_Cases.exch_all. Qed.
Print Assumptions C114_exchange_all_proposals.
Theorem C114_local_all_states : forall ls size k rs, length rs = size -> Forall (fun i => i < length ls) rs -> exists r, bounded r /\
  snd (jlocal_random r ls size k) = leg_local_random (leg_local_states ls) rs.
Proof. exact LegJsamp_Cases.local_random_all. Qed.
Print Assumptions C114_local_all_states.

(** Local kernel: whatever is done with the sampler, all configurations it keeps or returns
    are configurations of the space *)
Theorem C114_local_confined : forall Par r ls size logv (p : Par) k n sw s ops,
  bounded r -> NoDup ls -> 2 <= length ls -> 0 < size -> make size (jlocal_random r ls size) p k n sw = Ok s ->
  Forall (local_cfg ls size) (j_state (fst (local_history r ls size logv s ops))) /\
  Forall (local_cfg ls size) (results (snd (local_history r ls size logv s ops))).
Proof. exact (@LegJsamp_Keys.local_conf). Qed.
Print Assumptions C114_local_confined.
Example C114_local_confined_case : bounded LegJsamp_Cases.rng0 /\ NoDup [1%Z; (-1)%Z].
Proof. exact LegJsamp_Cases.local_case. Qed.

(** Exchange kernel: they are permutations of the first configuration *)
Theorem C114_exchange_confined : forall Par r cs traced size logv (p : Par) k n sw s ops,
  bounded r -> cs <> [] -> on_sites_nat size cs -> length traced = size -> make size (jexch_random traced) p k n sw = Ok s ->
  Forall (Permutation traced) (j_state (fst (exch_history r cs traced size logv s ops))) /\
  Forall (Permutation traced) (results (snd (exch_history r cs traced size logv s ops))).
Proof. exact (@LegJsamp_Keys.exch_conf). Qed.
Print Assumptions C114_exchange_confined.
Example C114_exchange_confined_case : on_sites_nat 3 [(0, 1); (1, 2)].
Proof. unfold on_sites_nat. repeat constructor. Qed.

(** No key is used for two draws in any history, and none is obtained from another one that is
    used; the same holds for the key kept for later *)
Theorem C114_local_keys : forall Par r ls size logv (s : jsmp Par) ops,
  let us := local_used r ls size logv s ops in
  let k' := j_key (fst (local_history r ls size logv s ops)) in
  Forall (derived (j_key s)) (k' :: us) /\ unrelated (k' :: us).
Proof. exact (@LegJsamp_Keys.local_keys). Qed.
Print Assumptions C114_local_keys.
Example C114_local_keys_case : length (local_used LegJsamp_Cases.rng0 [1%Z; (-1)%Z] 2 LegJsamp_Cases.flat
  (JSmp tt (Seed 0) [[1%Z; 1%Z]] 3 2%R 1 1) [JNext; JGenerate 2 true; JSetChains 2]) = 3 * 3 + (1 + 2 * 3 * 3) + 2.
Proof. exact LegJsamp_Cases.keys_case. Qed.
Theorem C114_exchange_keys : forall Par r cs traced size logv (s : jsmp Par) ops,
  let us := exch_used r cs traced size logv s ops in
  let k' := j_key (fst (exch_history r cs traced size logv s ops)) in
  Forall (derived (j_key s)) (k' :: us) /\ unrelated (k' :: us).
Proof. exact (@LegJsamp_Keys.exch_keys). Qed.
Print Assumptions C114_exchange_keys.

(** These are all the keys that matter: results depend on random numbers only through them *)
Theorem C114_local_reproducible : forall Par r r' ls size logv (s : jsmp Par) ops,
  Forall (agree r r') (local_used r ls size logv s ops) -> local_history r ls size logv s ops = local_history r' ls size logv s ops.
Proof. exact (@LegJsamp_Keys.local_two). Qed.
Print Assumptions C114_local_reproducible.
Theorem C114_exchange_reproducible : forall Par r r' cs traced size logv (s : jsmp Par) ops,
  Forall (agree r r') (exch_used r cs traced size logv s ops) ->
  exch_history r cs traced size logv s ops = exch_history r' cs traced size logv s ops.
Proof. exact (@LegJsamp_Keys.exch_two). Qed.
Print Assumptions C114_exchange_reproducible.
Example C114_reproducible_case : exists r', r_int LegJsamp_Cases.rng0 (Seed 1) 3 0 <> r_int r' (Seed 1) 3 0 /\
  Forall (agree LegJsamp_Cases.rng0 r') (local_used LegJsamp_Cases.rng0 [1%Z; (-1)%Z] 2 LegJsamp_Cases.flat
    (JSmp tt (Seed 0) [[1%Z; 1%Z]] 1 2%R 1 1) [JNext]).
Proof. exact LegJsamp_Cases.agree_case. Qed.

(** Local kernel: chains start from different configurations if the numbers are different *)
Theorem C114_local_start : exists r s, make 1 (jlocal_random r [1%Z; (-1)%Z] 1) tt (Seed 0) 2 None = Ok s /\
  j_state s = [[(-1)%Z]; [1%Z]].
Proof. exact LegJsamp_Cases.local_start. Qed.
Print Assumptions C114_local_start.
(** Exchange kernel: all chains start from one configuration, at every reset *)
Theorem C114_exchange_start_refuted : forall Par traced (s : jsmp Par), let s1 := fst (reset (jexch_random traced) true s) in
  j_state s1 = repeat traced (Z.to_nat (j_chains s)) /\ j_key s1 = j_key s.
Proof. exact (@LegJsamp_Keys.exch_start). Qed.
Print Assumptions C114_exchange_start_refuted.

(** The number of chains cannot be changed: AssertionError, although it has been changed *)
Theorem C114_chains_refuted : forall Par rd n (s : jsmp Par), (0 <= n)%Z -> n <> j_shape s ->
  let s1 := fst (set_chains rd n s) in
  snd (set_chains rd n s) = Err AssertionError /\ j_chains s1 = n /\ length (j_state s1) = Z.to_nat n.
Proof. exact (@LegJsamp_Proofs.chains_main). Qed.
Print Assumptions C114_chains_refuted.
(** ... and from then on init_random fails *)
Theorem C114_chains_later_refuted : forall Par logv unif mv rd n (s : jsmp Par), 0 < n -> (0 <= j_chains s)%Z -> j_chains s <> j_shape s ->
  snd (generate logv unif mv rd n true s) = Err AssertionError /\
  length (j_state (fst (generate logv unif mv rd n true s))) = Z.to_nat (j_chains s).
Proof. exact (@LegJsamp_Proofs.generate_assert). Qed.
Print Assumptions C114_chains_later_refuted.

(** A sweep size of 0 is accepted, a negative one refused after it has been set; all samples
    are then the present state *)
Theorem C114_sweep_size_refuted : forall Par size logv unif mv rd n v (s : jsmp Par), 0 < n -> (v <= 0)%Z ->
  snd (set_sweep size (Some v) s) = (if (v =? 0)%Z then Ok tt else Err ValueError) /\
  snd (generate logv unif mv rd n false (fst (set_sweep size (Some v) s))) = Ok (Some (repeat (j_state s) n)).
Proof. exact (@LegJsamp_Cases.sweep_main). Qed.
Print Assumptions C114_sweep_size_refuted.

(** generate_samples(0, init_random=True) neither returns an array nor resets *)
Theorem C114_no_samples_refuted : forall Par logv unif mv rd b (s : jsmp Par),
  generate logv unif mv rd 0 b s = (s, Ok None).
Proof. exact (@LegJsamp_Cases.no_samples). Qed.
Print Assumptions C114_no_samples_refuted.
