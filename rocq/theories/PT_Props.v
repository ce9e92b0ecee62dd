(** * Property C37: exchanges of the parallel tempering sampler *)
From Coq Require Import List Arith ZArith QArith Bool Permutation Lia.
From Verif Require Import Base PT_Model PT_Spec PT_Proofs.
Import ListNotations.
Open Scope nat_scope.

(** One exchange, for an even number of replicas and every outcome of the swap
    decisions: the proposed inverse temperatures are a permutation of the current
    ones, in which exactly the two members of every selected pair are exchanged. *)
Theorem C37_exchange :
  forall k order pairs beta,
    0 < k -> order < 2 -> length pairs = k -> length beta = 2 * k ->
    exists beta', pt_exchange (2 * k) order pairs beta = Ok beta' /\ Permutation beta beta' /\
      forall p, p < k ->
        let i := 2 * p + order in let j := (2 * p + order + 1) mod (2 * k) in
        nth i beta' 0%Q = (if nth p pairs false then nth j beta 0%Q else nth i beta 0%Q) /\
        nth j beta' 0%Q = (if nth p pairs false then nth i beta 0%Q else nth j beta 0%Q).
Proof. exact exchange_main. Qed.
Print Assumptions C37_exchange.

(** Any sequence of resets and samplings keeps the inverse temperatures of a chain a
    permutation of the initial ones, keeps the sampled replica inside the chain, and
    the counters per temperature add up to the accepted moves since the last reset. *)
Theorem C37_run :
  forall k ops, 0 < k -> Forall (op_ok (2 * k)) ops ->
    exists s, pt_run (2 * k) ops (pt_init (2 * k)) = Ok s /\
      Permutation (betas (2 * k)) (p_beta s) /\ p_zero s < 2 * k /\
      length (p_acc s) = 2 * k /\ list_sum (p_acc s) = accepted_since ops 0 /\
      p_exch s = sweeps_since ops 0.
Proof. exact run_main. Qed.
Print Assumptions C37_run.

(** The index of the sampled replica follows the exchange: were the exchanged inverse
    temperatures stored, one sweep would keep sampling the same inverse temperature.
    Missing: they are not stored (see the refutation below), and only one sweep. *)
Theorem C37_sampled_replica_partial :
  forall k o s beta', 0 < k -> outcome_ok (2 * k) o ->
    p_beta s = betas (2 * k) /\ p_zero s < 2 * k /\ length (p_acc s) = 2 * k ->
    pt_exchange (2 * k) (o_order o) (o_pairs o) (p_beta s) = Ok beta' ->
    exists s' r, pt_next (2 * k) [o] s = Ok (s', r) /\
      nth r beta' 0%Q = nth (p_zero s) (p_beta s) 0%Q.
Proof. exact tracks_main. Qed.
Print Assumptions C37_sampled_replica_partial.

(** The sample is not that of the replica of inverse temperature 1: after one sweep in
    which the first pair is swapped it is taken from a replica of inverse temperature
    1/2. *)
Theorem C37_sampled_replica_refuted :
  exists ops os s s' r, Forall (op_ok 2) ops /\ Forall (outcome_ok 2) os /\
    pt_run 2 ops (pt_init 2) = Ok s /\ pt_next 2 os s = Ok (s', r) /\
    nth r (p_beta s') 0%Q == (1 # 2)%Q /\ ~ (nth r (p_beta s') 0%Q == 1%Q).
Proof.
  exists [], [Outcome [true; false] 0 [true]].
  eexists. eexists. eexists. split; [constructor|]. split; [repeat constructor|].
  split; [vm_compute; reflexivity|]. split; [vm_compute; reflexivity|].
  split; [vm_compute; reflexivity|vm_compute; discriminate].
Qed.
Print Assumptions C37_sampled_replica_refuted.

(** An odd number of replicas passes the check of the constructor, and then every
    sampling step raises. *)
Theorem C37_odd_replicas_refuted :
  forall n o os s, Nat.odd n = true ->
    pt_post_init true (Z.of_nat n) = Ok tt /\ pt_next n (o :: os) s = Err ValueError.
Proof. exact odd_main. Qed.
Print Assumptions C37_odd_replicas_refuted.

(** The running mean of the position divides by the number of exchanges done before:
    it is undefined from the first sweep after initialisation on, whatever is drawn. *)
Theorem C37_position_statistics_refuted :
  forall n o os s r, pt_next n (o :: os) (pt_init n) = Ok (s, r) -> p_pos s = None.
Proof. exact position_main. Qed.
Print Assumptions C37_position_statistics_refuted.

Example C37_position_ex :
  exists s r, pt_next 2 [Outcome [true; true] 0 [false]] (pt_init 2) = Ok (s, r).
Proof. eexists. eexists. vm_compute. reflexivity. Qed.

(** A concrete case: four replicas, two sweeps, a reset and another sweep. *)
Example C37_ex :
  let o := Outcome [true; false; true; true] 1 [true; false] in
  Forall (op_ok 4) [PNext [o; o]; PReset; PNext [o]] /\
  (exists s, pt_run 4 [PNext [o; o]; PReset; PNext [o]] (pt_init 4) = Ok s /\
             p_acc s = [1; 1; 0; 1]) /\
  option_map (map Qred) (match pt_exchange 4 1 [true; true] (betas 4) with Ok l => Some l | _ => None end)
    = Some [1 # 4; 1 # 2; 3 # 4; 1 # 1]%Q.
Proof.
  repeat split; try (repeat constructor).
  eexists. split; vm_compute; reflexivity.
Qed.
