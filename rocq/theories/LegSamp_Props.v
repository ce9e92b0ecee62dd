(** * C110: the legacy samplers *)
From Coq Require Import List ZArith Bool Reals Permutation.
From Verif Require Import Base Balance_Spec Rules_Model Rules_Spec LegSamp_Model LegSamp_Spec.
From Verif Require LegSamp_Proofs LegSamp_Gen LegSamp_Run LegSamp_Pt LegSamp_Exch LegSamp_Witness LegSamp_Examples.
Import ListNotations.
Open Scope nat_scope.

(** ** Kernels *)

(** The local kernel at any power: detailed balance for |psi|^p, which any number of steps
    leaves unchanged *)
Theorem C110_local : forall ls n space psi p a,
  NoDup ls -> 2 <= length ls -> 0 < n -> NoDup space -> (forall x, In x space <-> local_cfg ls n x) ->
  (forall x y, In x space -> In y space -> probability_of (leg_test psi p (fun _ _ => 0%R) x y) (a x y)) ->
  forall z, In z space ->
    (forall x, In x space -> (weight psi p x * kernel cfg_eqd space (leg_local_T ls n) a x z
                            = weight psi p z * kernel cfg_eqd space (leg_local_T ls n) a z x)%R) /\
    forall k, pushes space (kernel cfg_eqd space (leg_local_T ls n) a) k (weight psi p) z = weight psi p z.
Proof. exact LegSamp_Proofs.local_main. Qed.
Print Assumptions C110_local.
Example C110_local_case := LegSamp_Examples.local_case.

(** A local move changes one site, to another of its values *)
Theorem C110_local_move : forall ls n i r x, NoDup ls -> local_cfg ls n x -> i < n -> S r < length ls ->
  local_cfg ls n (leg_local_move (leg_local_states ls) i r x) /\
  exists v, leg_local_move (leg_local_states ls) i r x = upd x i v /\ In v ls /\ v <> nth i x 0%Z.
Proof. exact LegSamp_Proofs.local_move_main. Qed.
Print Assumptions C110_local_move.
Example C110_local_move_case : leg_local_move (leg_local_states [1%Z; (-1)%Z]) 1 0 [1%Z; (-1)%Z] = [1%Z; 1%Z].
Proof. reflexivity. Qed.

(** Random states of the local kernel are configurations of the space *)
Theorem C110_local_random : forall ls rs, Forall (fun r => r < length ls) rs ->
  local_cfg ls (length rs) (leg_local_random (leg_local_states ls) rs).
Proof. exact LegSamp_Witness.local_random. Qed.
Print Assumptions C110_local_random.

(** The exchange kernel: the same, on any space closed under permutations of the sites *)
Theorem C110_exchange : forall n cs space psi p a,
  NoDup space -> cs <> [] -> on_sites_nat n cs ->
  (forall x, In x space -> length x = n /\ forall y, Permutation x y -> In y space) ->
  (forall x y, In x space -> In y space -> probability_of (leg_test psi p (fun _ _ => 0%R) x y) (a x y)) ->
  forall z, In z space ->
    (forall x, In x space -> (weight psi p x * kernel cfg_eqd space (leg_exchange_T cs) a x z
                            = weight psi p z * kernel cfg_eqd space (leg_exchange_T cs) a z x)%R) /\
    forall k, pushes space (kernel cfg_eqd space (leg_exchange_T cs) a) k (weight psi p) z = weight psi p z.
Proof. exact LegSamp_Proofs.exchange_main. Qed.
Print Assumptions C110_exchange.
Example C110_exchange_case := LegSamp_Examples.exchange_case.

(** An exchange permutes the values of the sites, and undoes itself *)
Theorem C110_exchange_move : forall n c x, fst c < n -> snd c < n -> length x = n ->
  Permutation x (leg_exchange_move c x) /\ leg_exchange_move c (leg_exchange_move c x) = x.
Proof. exact LegSamp_Proofs.exchange_move_main. Qed.
Print Assumptions C110_exchange_move.
Example C110_exchange_move_case : leg_exchange_move (0, 2) [1%Z; 2%Z; 3%Z] = [3%Z; 2%Z; 1%Z].
Proof. reflexivity. Qed.

(** The exchanged pairs are the pairs of sites at most d_max apart *)
Theorem C110_clusters : forall n dist d_max i j,
  In (i, j) (leg_clusters n dist d_max) <-> i < j < n /\ exists d, dist i j = Some d /\ d <= d_max.
Proof. exact LegSamp_Proofs.leg_clusters_in. Qed.
Print Assumptions C110_clusters.
Example C110_clusters_case : leg_clusters 3 (fun i j => Some (j - i)) 1 = [(0, 1); (1, 2)].
Proof. reflexivity. Qed.

(** The Hamiltonian kernel, a whole batch *)
Theorem C110_hamiltonian_batch : forall conn xs rnd,
  length rnd = length xs -> Forall (fun x => 0 < length (conn x)) xs -> Forall (fun u => (0 <= u < 1)%R) rnd ->
  exists ys, leg_ham_transition conn xs rnd = Ok (ys, map (fun t => ham_corr conn (fst t) (snd t)) (combine xs ys)) /\
    ys = map (fun t => nth (floor_draw (snd t) (length (conn (fst t)))) (conn (fst t)) []) (combine xs rnd).
Proof. exact LegSamp_Examples.ham_batch. Qed.
Print Assumptions C110_hamiltonian_batch.

(** The Hamiltonian kernel leaves |psi|^p N^(1-p) unchanged, N being the number of connected
    configurations *)
Theorem C110_hamiltonian_partial : forall conn space psi p a,
  NoDup space ->
  (forall x, In x space -> conn x <> [] /\ forall y, In y (conn x) -> In y space) ->
  (forall x y, In x space -> In y space -> count_occ cfg_eqd (conn x) y = count_occ cfg_eqd (conn y) x) ->
  (forall x y, In x space -> In y space -> probability_of (leg_test psi p (ham_corr conn) x y) (a x y)) ->
  forall n z, In z space ->
    pushes space (kernel cfg_eqd space (ham_T conn) a) n
      (fun x => weight psi p x * Rpower (n_of conn x) (1 - p))%R z
    = (weight psi p z * Rpower (n_of conn z) (1 - p))%R.
Proof. exact LegSamp_Proofs.ham_main. Qed.
Print Assumptions C110_hamiltonian_partial.

(** ... and so at the default power 2 not |psi|^2: one step from |psi|^2 leads away from it
    (the correction is multiplied by the power) *)
Theorem C110_hamiltonian_refuted : exists conn space psi a,
  NoDup space /\
  (forall x, In x space -> conn x <> [] /\ forall y, In y (conn x) -> In y space) /\
  (forall x y, In x space -> In y space -> count_occ cfg_eqd (conn x) y = count_occ cfg_eqd (conn y) x) /\
  (forall x y, In x space -> In y space -> probability_of (leg_test psi 2 (ham_corr conn) x y) (a x y)) /\
  exists z, In z space /\
    pushes space (kernel cfg_eqd space (ham_T conn) a) 1 (weight psi 2) z <> weight psi 2 z.
Proof. exact LegSamp_Witness.ham_refuted. Qed.
Print Assumptions C110_hamiltonian_refuted.

(** ** Metropolis sampler *)

(** Construction: exactly for numbers which are not negative; power 2, counters 0, as many
    chains as asked for, log-values of the drawn configurations *)
Theorem C110_init : forall Par Gen size logv k_move k_random, keeps_chains k_move k_random ->
  forall (p : Par) (g : Gen) n sw,
  ((exists s, init size logv k_random p g n sw = Ok s) <-> (0 <= n)%Z /\ (forall v, sw = Some v -> 0 <= v)%Z) /\
  forall s, init size logv k_random p g n sw = Ok s ->
    (length (s_lv s) = length (s_state s) /\ length (s_state s) = s_chains s) /\
    s_lv s = map (logv (s_par s)) (s_state s) /\ s_chains s = Z.to_nat n /\ s_shape s = Z.to_nat n /\ s_pow s = 2%R /\
    s_par s = p /\ (0 <= s_sweep s)%Z /\ s_acc s = 0%Z /\ s_tot s = 0%Z /\
    s_sweep s = match sw with Some v => v | None => Z.of_nat size end.
Proof. exact LegSamp_Examples.init_whole. Qed.
Print Assumptions C110_init.

(** One sweep of a sampler whose log-values belong to its configurations: in every chain the
    proposal replaces the configuration exactly when the next uniform number is below
    exp(p (log|psi'| - log|psi| + correction)); accepted moves are counted; the log-values
    belong to the new configurations *)
Theorem C110_sweep : forall Par Gen logv k_move k_random unif, keeps_chains k_move k_random ->
  forall s : smp Par Gen, s_lv s = map (logv (s_par s)) (s_state s) ->
  let '(g, prop) := k_move (s_gen s) (s_state s) in
  let us := draws unif (length (s_state s)) g in
  let s' := one_sweep logv k_move unif s in
  exists ds, length ds = length (s_state s) /\
    (forall i dx dy, i < length (s_state s) ->
       (nth i ds false = true <->
        (nth i us 0 < exp (s_pow s * (logv (s_par s) (fst (nth i prop dy)) - logv (s_par s) (nth i (s_state s) dx)
                                      + snd (nth i prop dy))))%R)) /\
    s_state s' = where_true ds (map fst prop) (s_state s) /\
    s_acc s' = (s_acc s + count_true ds)%Z /\
    s_lv s' = map (logv (s_par s')) (s_state s').
Proof. exact LegSamp_Examples.sweep_whole. Qed.
Print Assumptions C110_sweep.

(** Whatever is done with a sampler, the log-values belong to the configurations and the
    current parameters as long as it has been reset since the parameters or the number of
    chains were changed *)
Theorem C110_values : forall Par Gen size logv k_move k_random unif, keeps_chains k_move k_random ->
  forall (p : Par) (g : Gen) n sw s ops, init size logv k_random p g n sw = Ok s ->
  let s' := run size logv k_move k_random unif ops s in
  (length (s_lv s') = length (s_state s') /\ length (s_state s') = s_chains s') /\
  (up_to_date true ops = true -> s_lv s' = map (logv (s_par s')) (s_state s')).
Proof. exact LegSamp_Examples.values_whole. Qed.
Print Assumptions C110_values.
Example C110_values_case : up_to_date (Par := unit) true [SetPar tt; Next; Reset false; Next; Generate 3 true; SetPow 1%R] = true.
Proof. reflexivity. Qed.

(** Without the reset moves are judged by the old parameters: a move which the test accepts
    is refused *)
Theorem C110_values_refuted : exists (s : smp bool nat),
  init 1 LegSamp_Witness.two_models LegSamp_Witness.at_zero false 0 1 (Some 1%Z) = Ok s /\
  let logv := LegSamp_Witness.two_models in
  let s' := run 1 logv LegSamp_Witness.to_one LegSamp_Witness.at_zero LegSamp_Witness.half [SetPar true] s in
  let '(g, prop) := LegSamp_Witness.to_one (s_gen s') (s_state s') in
  (forall i, i < length (s_state s') ->
     (nth i (draws LegSamp_Witness.half 1 g) 0 <
      exp (s_pow s' * (logv (s_par s') (fst (nth i prop ([], 0))) - logv (s_par s') (nth i (s_state s') [])
                       + snd (nth i prop ([], 0)))))%R) /\
  s_state (next logv LegSamp_Witness.to_one LegSamp_Witness.half s') = s_state s' /\ map fst prop <> s_state s'.
Proof. exact LegSamp_Witness.stale_values. Qed.
Print Assumptions C110_values_refuted.

(** The acceptance is between 0 and 1, unless a negative sweep size was given or the number
    of chains changed *)
Theorem C110_acceptance_partial : forall Par Gen size logv k_move k_random unif, keeps_chains k_move k_random ->
  forall (p : Par) (g : Gen) n sw s ops, init size logv k_random p g n sw = Ok s -> Forall proper ops ->
  forall a, acceptance (run size logv k_move k_random unif ops s) = Some a -> (0 <= a <= 1)%R.
Proof. exact (@LegSamp_Run.acceptance_main). Qed.
Print Assumptions C110_acceptance_partial.

(** A negative sweep size is refused with ValueError, and used all the same: no chain moves
    and the total number of moves decreases *)
Theorem C110_sweep_size_refuted : forall Par Gen size logv k_move unif v (s : smp Par Gen), (v < 0)%Z ->
  snd (set_sweep size (Some v) s) = Err ValueError /\
  let s' := next logv k_move unif (fst (set_sweep size (Some v) s)) in
  s_state s' = s_state s /\ s_gen s' = s_gen s /\ s_tot s' = (s_tot s + v * Z.of_nat (s_chains s))%Z.
Proof. exact (@LegSamp_Witness.neg_sweep). Qed.
Print Assumptions C110_sweep_size_refuted.

(** generate_samples(n): the configurations after 1, ..., n steps from the reset *)
Theorem C110_generate : forall Par Gen logv k_move k_random unif, keeps_chains k_move k_random ->
  forall n b (s : smp Par Gen), length (s_lv s) = length (s_state s) /\ length (s_state s) = s_chains s ->
  s_shape s = s_chains s ->
  snd (generate logv k_move k_random unif n b s) =
    Ok (map (fun i => s_state (nexts logv k_move unif (S i) (reset logv k_random b s))) (seq 0 n)).
Proof. exact (@LegSamp_Run.generate_main). Qed.
Print Assumptions C110_generate.

(** list(samples(n)) is not that: all its elements are the last configurations *)
Theorem C110_samples_refuted : exists (s : smp unit nat),
  init 1 LegSamp_Witness.flat LegSamp_Witness.at_zero tt 0 1 (Some 1%Z) = Ok s /\
  snd (generate LegSamp_Witness.flat LegSamp_Witness.count_up LegSamp_Witness.at_zero LegSamp_Witness.half 2 true s)
    = Ok [[[1%Z]]; [[2%Z]]] /\
  snd (samples_list LegSamp_Witness.flat LegSamp_Witness.count_up LegSamp_Witness.at_zero LegSamp_Witness.half 2 true s)
    = [[[2%Z]]; [[2%Z]]].
Proof. exact LegSamp_Witness.samples_alias. Qed.
Print Assumptions C110_samples_refuted.

(** After n_chains has been set to another number n >= 2 generate_samples raises ValueError,
    however often the sampler is reset *)
Theorem C110_chains_refuted : forall Par Gen size logv k_move k_random unif, keeps_chains k_move k_random ->
  forall k n b (s : smp Par Gen), (2 <= n)%Z -> s_shape s <> Z.to_nat n ->
  snd (generate logv k_move k_random unif (S k) b (fst (set_chains size n s))) = Err ValueError.
Proof. exact (@LegSamp_Run.chains_main). Qed.
Print Assumptions C110_chains_refuted.

(** ... and the chains then stand at configurations outside of a space without the value 0 *)
Theorem C110_chains_state : forall Par Gen size ls n (s : smp Par Gen) x, 0 < size -> ~ In 0%Z ls -> (0 <= n)%Z ->
  In x (s_state (fst (set_chains size n s))) -> ~ local_cfg ls size x.
Proof. exact (@LegSamp_Witness.chains_zero). Qed.
Print Assumptions C110_chains_state.

(** ** Parallel tempering *)

(** Whatever is done: the inverse temperatures are 1 - i/n, permuted; the recorded position
    is the replica at inverse temperature 1, the only one; next returns the configuration of
    that replica *)
Theorem C110_replicas : forall Par Gen size logv k_move k_random unif rint2, keeps_chains k_move k_random ->
  forall junk (p : Par) (g : Gen) n sw s ops, length junk = Z.to_nat n ->
  pt_init size logv k_random junk p g n sw = Ok s ->
  let s' := pt_run logv k_move k_random unif rint2 ops s in
  Permutation (leg_betas (Z.to_nat n)) (t_beta s') /\
  t_pos s' < Z.to_nat n /\ (forall i, i < Z.to_nat n -> (nth i (t_beta s') 0%R = 1%R <-> i = t_pos s')) /\
  let s'' := fst (pt_next logv k_move unif rint2 s') in
  snd (pt_next logv k_move unif rint2 s') = Ok (nth (t_pos s'') (t_state s'') []) /\
  nth (t_pos s'') (t_beta s'') 0%R = 1%R.
Proof. exact (@LegSamp_Pt.pt_main). Qed.
Print Assumptions C110_replicas.

(** Moves at fixed temperature: replica i accepts by exp(p beta_i (...)) *)
Theorem C110_replica_moves : forall Par Gen logv k_move k_random unif, keeps_chains k_move k_random ->
  forall n b0 (s : ptm Par Gen),
  length (t_state s) = n -> length (t_prop s) = n -> length (t_beta s) = n -> length (t_acc s) = n ->
  Permutation b0 (t_beta s) -> t_pos s < n -> nth (t_pos s) (t_beta s) 0%R = 1%R ->
  t_lv s = map (logv (t_par s)) (t_state s) ->
  let s' := fixed_step logv k_move unif s in
  let '(g, prop) := k_move (t_gen s) (t_state s) in
  let us := draws unif n g in
  exists ds, length ds = n /\
    (forall i dx dy, i < n ->
       (nth i ds false = true <->
        (nth i us 0 < exp (t_pow s * nth i (t_beta s) 0 *
           (logv (t_par s) (fst (nth i prop dy)) - logv (t_par s) (nth i (t_state s) dx) + snd (nth i prop dy))))%R)) /\
    t_state s' = where_true ds (map fst prop) (t_state s) /\
    t_acc s' = where_true ds (map S (t_acc s)) (t_acc s) /\
    t_lv s' = map (logv (t_par s')) (t_state s').
Proof. exact LegSamp_Examples.fixed_whole. Qed.
Print Assumptions C110_replica_moves.

(** Exchanges between an even number of replicas: neighbours a, b exchange their inverse
    temperatures exactly when the next uniform number is below the ratio of the joint weights
    prod_i |psi(x_i)|^(p beta_i) *)
Theorem C110_replica_exchange_partial : forall Par Gen unif rint2 k (s : ptm Par Gen), 0 < k ->
  length (t_beta s) = 2 * k -> length (t_prop s) = 2 * k ->
  let '(g, o) := rint2 (t_gen s) in
  let us := draws unif k g in
  let s' := exchange_step unif rint2 s in
  exists ds, length ds = k /\
    forall q, q < k ->
      let a := (if o : bool then 1 else 0) + 2 * q in
      let b := (a + 1) mod (2 * k) in
      (forall beta', exchanged a b (t_beta s) beta' ->
         (nth q ds false = true <->
          (nth q us 0 < joint (t_pow s) (t_lv s) beta' / joint (t_pow s) (t_lv s) (t_beta s))%R)) /\
      nth a (t_beta s') 0%R = (if nth q ds false then nth b (t_beta s) 0%R else nth a (t_beta s) 0%R) /\
      nth b (t_beta s') 0%R = (if nth q ds false then nth a (t_beta s) 0%R else nth b (t_beta s) 0%R).
Proof. exact (@LegSamp_Exch.exchange_main). Qed.
Print Assumptions C110_replica_exchange_partial.

(** With three replicas the test is another one: an exchange of equal joint weight is
    refused *)
Theorem C110_replica_exchange_refuted : exists s : ptm unit nat,
  pt_init 1 LegSamp_Witness.ones LegSamp_Witness.at_zero [0; 0; 0]%R tt 0 3 (Some 1) = Ok s /\
  let s' := exchange_step LegSamp_Witness.nine_tenths LegSamp_Witness.from_zero s in
  (forall beta', exchanged 0 1 (t_beta s) beta' ->
     (nth 0 (draws LegSamp_Witness.nine_tenths 1 (fst (LegSamp_Witness.from_zero (t_gen s)))) 0 <
      joint (t_pow s) (t_lv s) beta' / joint (t_pow s) (t_lv s) (t_beta s))%R) /\
  nth 1 (t_beta s') 0%R = nth 1 (t_beta s) 0%R /\ nth 1 (t_beta s) 0%R <> nth 0 (t_beta s) 0%R.
Proof. exact LegSamp_Witness.odd_replicas. Qed.
Print Assumptions C110_replica_exchange_refuted.

(** The statistics are mean and squared deviations of the positions since the reset *)
Theorem C110_replica_stats : forall Par Gen logv k_move k_random unif rint2 b k (s : ptm Par Gen), 0 < k ->
  let s' := pt_sweeps logv k_move unif rint2 k (pt_reset logv k_random b s) in
  let ps := map t_pos (trace (fun s => exchange_step unif rint2 (fixed_step logv k_move unif s)) k (pt_reset logv k_random b s)) in
  t_mean s' = mean_of ps /\ t_m2 s' = sq_dev ps /\ t_steps s' = k.
Proof. exact LegSamp_Examples.stats_whole. Qed.
Print Assumptions C110_replica_stats.

(** Setting n_replicas keeps the position: if it is not below the new number, next raises
    IndexError even after a reset; if it is, and not 0, that replica is not at inverse
    temperature 1 *)
Theorem C110_set_replicas_refuted : forall Par Gen size logv k_move k_random unif rint2, keeps_chains k_move k_random ->
  forall junk n b (s : ptm Par Gen), (1 <= n)%Z ->
  let s' := pt_reset logv k_random b (fst (set_replicas size junk n s)) in
  snd (set_replicas size junk n s) = Ok tt /\
  (Z.to_nat n <= t_pos s -> snd (pt_next logv k_move unif rint2 s') = Err IndexError) /\
  (0 < t_pos s < Z.to_nat n -> (nth (t_pos s') (t_beta s') 0 < 1)%R).
Proof. exact (@LegSamp_Witness.replicas_main). Qed.
Print Assumptions C110_set_replicas_refuted.
(** The position does leave 0 *)
Example C110_set_replicas_case := LegSamp_Witness.moved.

(** A sweep takes one number per chain from the generator the kernel leaves, and hands on
    the generator after them: no number is used twice *)
Theorem C110_fresh_numbers : forall Par Gen (logv : Par -> cfg -> R) (k_move : Gen -> list cfg -> Gen * list (cfg * R)) (unif : Gen -> Gen * R)
  (s : smp Par Gen),
  length (s_lv s) = length (s_state s) -> length (snd (k_move (s_gen s) (s_state s))) = length (s_state s) ->
  s_gen (one_sweep logv k_move unif s) = Nat.iter (length (s_state s)) (fun g => fst (unif g)) (fst (k_move (s_gen s) (s_state s))).
Proof. exact @LegSamp_Gen.sweep_gen. Qed.
Print Assumptions C110_fresh_numbers.

(** ** Exact sampler *)

(** After construction, a reset or a change of the power samples are drawn with
    probabilities |psi|^p / sum |psi|^p *)
Theorem C110_exact : forall Par (amps : Par -> list R) p0 (s : exs (Par := Par)) pw,
  (forall p, amps p <> [] /\ Forall (fun a => (0 < a)%R) (amps p)) ->
  exact_law (amps p0) 2 (ex_generate_dist (ex_init amps p0)) /\
  exact_law (amps (e_par s)) (e_pow s) (ex_generate_dist (ex_reset amps s)) /\
  exact_law (amps (e_par s)) pw (ex_generate_dist (ex_set_pow amps pw s)).
Proof. exact (@LegSamp_Witness.ex_main). Qed.
Print Assumptions C110_exact.

(** generate_samples does not reset: after the parameters change the old probabilities are
    used *)
Theorem C110_exact_refuted : exists (amps : bool -> list R) (s : exs (Par := bool)),
  (forall p, amps p <> [] /\ Forall (fun a => (0 < a)%R) (amps p)) /\
  exact_law (amps (e_par s)) (e_pow s) (ex_generate_dist s) /\
  let s' := ex_set_par true s in
  ~ exact_law (amps (e_par s')) (e_pow s') (ex_generate_dist s').
Proof. exact LegSamp_Witness.ex_stale. Qed.
Print Assumptions C110_exact_refuted.

(** The kernels used in the examples meet the hypothesis on kernels; a sampler exists *)
Example C110_kernel_case : keeps_chains LegSamp_Witness.to_one LegSamp_Witness.at_zero.
Proof. exact LegSamp_Witness.one_site_keeps. Qed.
Example C110_init_case : exists s, init 1 LegSamp_Witness.flat LegSamp_Witness.at_zero tt 0 4 None = Ok s /\ s_chains s = 4.
Proof. eexists. split; reflexivity. Qed.
