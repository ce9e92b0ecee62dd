(** * Properties C39 (numbers of chains and samples), C47 (cached samples), C60 (serialisation) *)
From Coq Require Import List ZArith Bool Lia.
From Verif Require Import Base MCState_Model MCState_Spec MCState_Proofs.
Import ListNotations.
Open Scope Z_scope.

(** ** C39 *)

(** The sampler runs at least the requested number of chains, and fewer than requested
    plus the number of ranks. *)
Theorem C39_chains :
  forall n_nodes n, 0 < n_nodes -> 0 < n ->
    exists c, pre_init n_nodes (Some n) None = Ok c /\ 1 <= c /\ n <= c * n_nodes < n + n_nodes.
Proof. exact chains_main. Qed.
Print Assumptions C39_chains.

(** Both keywords are refused; a number per rank is used as given. *)
Theorem C39_chains_keywords :
  forall n_nodes n c, pre_init n_nodes (Some n) (Some c) = Err ValueError /\
    pre_init n_nodes None (Some c) = Ok c /\
    pre_init n_nodes None None = pre_init n_nodes (Some 16) None.
Proof. exact (fun n_nodes n c => conj eq_refl (conj eq_refl eq_refl)). Qed.
Print Assumptions C39_chains_keywords.

(** Setting n_samples: at least as many, fewer than requested plus the number of chains,
    a multiple of the number of chains; non-positive numbers are refused. *)
Theorem C39_n_samples :
  forall (Par MSt RS Smp : Type) n_nodes (s : mcstate Par MSt RS Smp) n,
    0 < n_chains n_nodes (f_sampler s) ->
    (0 < n -> exists s', set_n_samples n_nodes n s = Ok s' /\
       n <= f_n_samples s' < n + n_chains n_nodes (f_sampler s) /\
       f_n_samples s' = f_chain_length s' * n_chains n_nodes (f_sampler s') /\
       f_sampler s' = f_sampler s /\ 0 < f_chain_length s') /\
    (n <= 0 -> set_n_samples n_nodes n s = Err ValueError).
Proof. exact (fun Par MSt RS Smp => @n_samples_main Par MSt RS Smp). Qed.
Print Assumptions C39_n_samples.

(** As long as the sampler is not exchanged and sample() is not asked for another number,
    the samples of a state are drawn with chains of length n_samples / n_chains, whatever
    happened before. *)
Theorem C39_samples_drawn :
  forall (Par MSt RS Smp : Type) n_nodes o_reset o_sample o_init sm v n p d
         (s : mcstate Par MSt RS Smp) ops,
    0 < n_chains n_nodes sm ->
    construct n_nodes o_init sm v n p d = Ok s -> forallb plain ops = true ->
    let t := mc_run n_nodes o_reset o_sample o_init ops s in
    f_n_samples t = f_chain_length t * n_chains n_nodes (f_sampler t) /\
    exists t' x, msamples n_nodes o_reset o_sample t = Ok (t', x) /\
      drawn_with_length o_sample (f_sampler t) (variables t) (f_chain_length t) x.
Proof.
  exact (fun Par MSt RS Smp n_nodes o_reset o_sample o_init sm v n p d s ops Hc E Hp =>
    let H := run_ninv n_nodes o_reset o_sample o_init ops s Hp
               (construct_ninv n_nodes o_sample o_init sm v n p d s Hc E) in
    conj (proj1 (proj2 H)) (samples_length n_nodes o_reset o_sample _ H)).
Qed.
Print Assumptions C39_samples_drawn.

(** Reading back chain_length gives what was set, on one rank ... *)
Theorem C39_chain_length_partial :
  forall (Par MSt RS Smp : Type) n_nodes (s : mcstate Par MSt RS Smp) len,
    n_nodes = 1 -> 0 < n_chains n_nodes (f_sampler s) -> 0 < len ->
    exists s', set_chain_length n_nodes len s = Ok s' /\ chain_length s' = len.
Proof. exact (fun Par MSt RS Smp => @chain_length_main Par MSt RS Smp). Qed.
Print Assumptions C39_chain_length_partial.

(** ... on several ranks it gives n_nodes times what was set, always. *)
Theorem C39_chain_length_refuted :
  forall (Par MSt RS Smp : Type) n_nodes (s : mcstate Par MSt RS Smp) len,
    0 < n_nodes -> 0 < n_chains n_nodes (f_sampler s) -> 0 < len ->
    exists s', set_chain_length n_nodes len s = Ok s' /\ chain_length s' = len * n_nodes.
Proof. exact (fun Par MSt RS Smp => @chain_length_ranks Par MSt RS Smp). Qed.
Print Assumptions C39_chain_length_refuted.

(** Reading back n_samples_per_rank does not give what was set, even on one rank and for
    a multiple of the number of chains: 1008 samples on 16 chains are reported as 63. *)
Theorem C39_n_samples_per_rank_refuted :
  forall (Par MSt RS Smp : Type) (p : Par) (m : MSt) (r : RS),
    exists (s s' : mcstate Par MSt RS Smp),
      f_sampler s = Sampler 0 16 false /\
      set_n_samples_per_rank 1 1008 s = Ok s' /\ n_samples_per_rank 1 s' = 63 /\
      f_n_samples s' = 1008.
Proof.
  exact (fun Par MSt RS Smp p m r =>
    ex_intro _ (MCState p m (Sampler 0 16 false) r None 0 0 0 0) (ex_intro _ _
      (conj eq_refl (conj eq_refl (conj eq_refl eq_refl))))).
Qed.
Print Assumptions C39_n_samples_per_rank_refuted.

(** After the sampler is replaced by one with another number of chains, n_samples is stale:
    the state reports 1008 samples but draws chains of length 63 on 32 chains (2016). *)
Theorem C39_sampler_change_refuted :
  forall (Par MSt RS Smp : Type) (v : MSt * Par) (r : RS) o_init,
    exists (s t : mcstate Par MSt RS Smp) sm,
      construct 1 o_init (Sampler 0 16 false) v (Some 1008) None None = Ok s /\
      t = set_sampler o_init sm s /\ f_n_samples t = 1008 /\
      f_chain_length t * n_chains 1 (f_sampler t) = 2016.
Proof.
  exact (fun Par MSt RS Smp v r o_init =>
    ex_intro _ _ (ex_intro _ _ (ex_intro _ (Sampler 1 32 false)
      (conj eq_refl (conj eq_refl (conj eq_refl eq_refl)))))).
Qed.
Print Assumptions C39_sampler_change_refuted.

(** The number of discarded samples passed to sample() is ignored if the state's own number
    is zero: no discarding call is made, whatever is asked for. *)
Theorem C39_discard_override_refuted :
  forall (Par MSt RS Smp : Type) n_nodes o_reset o_sample (s : mcstate Par MSt RS Smp) cl n d,
    f_discard s = 0 ->
    msample n_nodes o_reset o_sample cl n (Some d) s = msample n_nodes o_reset o_sample cl n None s.
Proof.
  intros Par MSt RS Smp n_nodes o_reset o_sample s cl n d H.
  unfold msample. rewrite H. reflexivity.
Qed.
Print Assumptions C39_discard_override_refuted.

(** ** C47 *)

(** Through every history of assignments, samplings and resets, the samples property
    returns configurations drawn by the current sampler with the current variables. *)
Theorem C47_samples_current :
  forall (Par MSt RS Smp : Type) n_nodes o_reset o_sample o_init sm v n p d
         (s : mcstate Par MSt RS Smp) ops,
    construct n_nodes o_init sm v n p d = Ok s ->
    let t := mc_run n_nodes o_reset o_sample o_init ops s in
    exists t' x, msamples n_nodes o_reset o_sample t = Ok (t', x) /\
      drawn_with o_sample (f_sampler t) (variables t) x /\
      variables t' = variables t /\ f_sampler t' = f_sampler t /\ f_samples t' = Some x.
Proof.
  exact (fun Par MSt RS Smp n_nodes o_reset o_sample o_init sm v n p d s ops E =>
    samples_current n_nodes o_reset o_sample _
      (run_inv n_nodes o_reset o_sample o_init ops s
         (proj1 (construct_inv n_nodes o_sample o_init sm v n p d s E)))).
Qed.
Print Assumptions C47_samples_current.

(** Assignments are the only operations that change the variables. *)
Theorem C47_variables :
  forall (Par MSt RS Smp : Type) n_nodes o_reset o_sample o_init ops (s : mcstate Par MSt RS Smp),
    variables (mc_run n_nodes o_reset o_sample o_init ops s) = current ops (variables s).
Proof. exact (fun Par MSt RS Smp => @run_variables Par MSt RS Smp). Qed.
Print Assumptions C47_variables.

(** Concrete histories: samples are tagged with the variables they were drawn with. *)
Example C47_ex :
  let o_sample := fun (sm : sampler) (v : nat * nat) (rs : nat) (len : Z) => ((sm_id sm, v, len), S rs) in
  let o_reset := fun (_ : sampler) (_ : nat * nat) (rs : nat) => rs in
  let o_init := fun (_ : sampler) (_ : nat * nat) => 0%nat in
  exists s, construct 2 o_init (Sampler 7 4 false) (1%nat, 2%nat) (Some 100) None None = Ok s /\
  let t := mc_run 2 o_reset o_sample o_init [OSamples; OPar 5%nat; OSample None (Some 20) None] s in
  match msamples 2 o_reset o_sample t with Ok (_, x) => x | Err _ => (0%nat, (0%nat, 0%nat), 0) end
  = (7%nat, (1%nat, 5%nat), 3).
Proof. eexists. split; vm_compute; reflexivity. Qed.

(** ** C60 *)

(** Saving a state and loading it into a state with the same sampler restores the
    variables, the state of the sampler and the numbers of samples. *)
Theorem C60_roundtrip :
  forall (Par MSt RS Smp : Type) n_nodes o_reset o_sample o_init sm v n p d
         (s : mcstate Par MSt RS Smp) ops (t : mcstate Par MSt RS Smp),
    0 < n_chains n_nodes sm ->
    construct n_nodes o_init sm v n p d = Ok s -> forallb plain ops = true ->
    let u := mc_run n_nodes o_reset o_sample o_init ops s in
    f_sampler t = f_sampler u ->
    exists u', deserialize n_nodes t (serialize u) = Ok u' /\
      variables u' = variables u /\ f_rs u' = f_rs u /\
      f_n_samples u' = f_n_samples u /\ f_chain_length u' = f_chain_length u /\
      f_discard u' = f_discard u /\ f_samples u' = None.
Proof. exact (fun Par MSt RS Smp => @run_roundtrip Par MSt RS Smp). Qed.
Print Assumptions C60_roundtrip.

(** Loaded into a state whose sampler has another number of chains, the number of samples
    is rounded up to that number. *)
Theorem C60_other_chains_refuted :
  forall (Par MSt RS Smp : Type) (v : MSt * Par) o_init,
    exists (s t t' : mcstate Par MSt RS Smp),
      construct 1 o_init (Sampler 0 16 false) v (Some 1008) None None = Ok s /\
      construct 1 o_init (Sampler 0 50 false) v None None None = Ok t /\
      deserialize 1 t (serialize s) = Ok t' /\ f_n_samples s = 1008 /\ f_n_samples t' = 1050.
Proof.
  exact (fun Par MSt RS Smp v o_init =>
    ex_intro _ _ (ex_intro _ _ (ex_intro _ _
      (conj eq_refl (conj eq_refl (conj eq_refl (conj eq_refl eq_refl))))))).
Qed.
Print Assumptions C60_other_chains_refuted.

Example C60_ex :
  let o_sample := fun (sm : sampler) (v : nat * nat) (rs : nat) (len : Z) => ((sm_id sm, v, len), S rs) in
  let o_reset := fun (_ : sampler) (_ : nat * nat) (rs : nat) => rs in
  let o_init := fun (_ : sampler) (_ : nat * nat) => 0%nat in
  exists s, construct 2 o_init (Sampler 7 4 false) (1%nat, 2%nat) (Some 100) None None = Ok s /\
  let u := mc_run 2 o_reset o_sample o_init [OSamples; OPar 5%nat; OSamples] s in
  forallb (@plain nat nat nat) [OSamples; OPar 5%nat; OSamples] = true /\
  0 < f_chain_length u /\ 0 <= f_discard u /\ f_sampler s = f_sampler u /\
  match deserialize 2 s (serialize u) with Ok u' => (variables u', f_rs u', f_n_samples u') | Err _ => ((0%nat,0%nat),0%nat,0) end
  = ((1%nat, 5%nat), 4%nat, 104).
Proof. eexists. split; [vm_compute; reflexivity|]. repeat split; vm_compute; congruence. Qed.

(** C61.  Without an argument, sample() throws away n_discard_per_chain samples of every
    chain; with a positive argument it throws away that many, if the state itself has a
    positive n_discard_per_chain. *)
Theorem C61_discard_partial :
  forall (Par MSt RS Smp : Type) n_nodes o_reset o_sample (s : mcstate Par MSt RS Smp) cl n nd s' x,
    0 <= f_discard s ->
    (nd = None \/ exists d, nd = Some d /\ 0 < d /\ 0 < f_discard s) ->
    msample n_nodes o_reset o_sample cl n nd s = Ok (s', x) ->
    exists len, drawn_after o_sample o_reset (f_sampler s) (variables s) (f_rs s)
      (match nd with Some d => d | None => f_discard s end) len x.
Proof. exact (fun Par MSt RS Smp => @discard_main Par MSt RS Smp). Qed.
Print Assumptions C61_discard_partial.

(** A state with n_discard_per_chain = 0 ignores the argument. *)
Theorem C61_discard_refuted :
  exists (o_reset : sampler -> nat * nat -> Z -> Z) (o_sample : sampler -> nat * nat -> Z -> Z -> Z * Z)
         (s s' : mcstate nat nat Z Z) x,
    f_discard s = 0 /\ msample 1 o_reset o_sample None None (Some 5) s = Ok (s', x) /\
    ~ exists len, drawn_after o_sample o_reset (f_sampler s) (variables s) (f_rs s) 5 len x.
Proof.
  exact (ex_intro _ (fun _ _ rs => rs) (ex_intro _ (fun _ _ rs len => (rs, rs + len))
    (ex_intro _ (MCState 0%nat 0%nat (Sampler 0 1 false) 3 None 10 10 10 0)
    (ex_intro _ (MCState 0%nat 0%nat (Sampler 0 1 false) 13 (Some 3) 10 10 10 0)
    (ex_intro _ 3 (conj eq_refl (conj eq_refl (fun H =>
      match H with ex_intro _ _ E => eq_ind 8 (fun z => match z with 3 => False | _ => True end) I 3 (eq_sym E) end)))))))).
Qed.
Print Assumptions C61_discard_refuted.
