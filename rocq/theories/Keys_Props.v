(** * Property C77: keys of the random numbers *)
From Coq Require Import List Arith ZArith Lia.
From Verif Require Import Keys_Model Keys_Spec Keys_Proofs.
Import ListNotations.

(** Whatever the ranks do with their samplers, no key is used twice by any of them and none
    is obtained from another one in use. *)
Theorem C77_ranks : forall s (ops : nat -> list op) args, proper_sampler s ->
  unrelated (concat (map (fun r => life s (ops r) (init_key args r)) (seq 0 (length args)))) /\
  Forall (derived (prng_key args)) (concat (map (fun r => life s (ops r) (init_key args r)) (seq 0 (length args)))).
Proof. exact ranks_main. Qed.
Print Assumptions C77_ranks.
Theorem C77_rules : proper_rule whole /\ proper_rule local_rule.
Proof. exact (conj proper_whole proper_local). Qed.
Print Assumptions C77_rules.

(** The seed of rank 0 decides; the documented sum of the seeds is not formed. *)
Theorem C77_root_only : forall args args' r,
  hd_error args = hd_error args' -> length args = length args' -> init_key args r = init_key args' r.
Proof. exact root_only. Qed.
Print Assumptions C77_root_only.

(** PRNGSeq.take *)
Theorem C77_take : forall nums k,
  let ks := snd (fold_left (fun st num => let '(k', a) := seq_take num (fst st) in (k', snd st ++ a)) nums (k, [])) in
  Forall (derived k) ks /\ unrelated ks.
Proof. exact takes_ok. Qed.
Print Assumptions C77_take.
(** PRNGSeq.next hands out the key from which all later ones are made: a sequence started
    from it repeats them. *)
Theorem C77_next_refuted : forall k k1 k2 c c',
  seq_next k = (c, [k1]) -> seq_next c = (c', [k2]) ->
  ~ unrelated [k1; k2] /\ seq_next k1 = seq_next c.
Proof. exact next_related. Qed.
Print Assumptions C77_next_refuted.

(** The samplers of a density matrix and of its diagonal never share a key. *)
Theorem C77_mixed : forall seed sampler_seed rnd rnd' s s' ops ops' n r r' z z',
  proper_sampler s -> proper_sampler s' -> r < n -> r' < n ->
  let '(m, d) := mixed_sampler_seeds seed sampler_seed rnd rnd' in
  forall a b, In a (assign_sampler s m z n r ops) -> In b (assign_sampler s' d z' n r' ops') -> ~ related a b.
Proof. exact mixed_main. Qed.
Print Assumptions C77_mixed.

(** Parameters and sampler with two different seeds are unrelated ... *)
Theorem C77_state_partial : forall vg z z' rnd s ops n r, proper_sampler s -> r < n -> z <> z' ->
  let '(ps, stored) := state_keys vg (SInt z) (SInt z') rnd in
  forall a b, In a ps -> In b (assign_sampler s stored rnd n r ops) -> ~ related a b.
Proof. exact state_partial. Qed.
Print Assumptions C77_state_partial.
(** ... but with one seed every key of the sampler is obtained from the key used for the
    parameters, more precisely from the second half of its split. *)
Theorem C77_state_refuted : forall z rnd s ops n r, proper_sampler s -> r < n ->
  let '(ps, stored) := state_keys false (SInt z) SNone rnd in
  ps = [Seed z] /\ Forall (derived (Seed z)) (assign_sampler s stored rnd n r ops) /\
  Forall (derived (sub (Seed z) 2 1)) (assign_sampler s stored rnd n r ops).
Proof. exact state_derived. Qed.
Print Assumptions C77_state_refuted.
(** Assigning a sampler to a state with a seed starts the same random numbers again. *)
Theorem C77_assign_refuted : forall s stored rnd rnd' n r ops, stored <> SNone ->
  assign_sampler s stored rnd n r ops = assign_sampler s stored rnd' n r ops.
Proof.
  exact (fun s stored rnd rnd' n r ops =>
    match stored with
    | SNone => fun H => match H eq_refl with end
    | _ => fun _ => eq_refl
    end).
Qed.
Print Assumptions C77_assign_refuted.

Example C77_ex : proper_sampler (Metropolis true local_rule 2) /\
  length (life (Metropolis true local_rule 2) [Reset; Sample 2] (Seed 5)) = 14 /\
  length (life (AutoReg 3) [Sample 1; Sample 1] (Seed 5)) = 9.
Proof. split; [exact proper_local|]. split; reflexivity. Qed.
Example C77_ex_next : exists k1 k2 c c', seq_next (Seed 1) = (c, [k1]) /\ seq_next c = (c', [k2]) /\ k1 <> k2.
Proof. do 4 eexists. split; [reflexivity|]. split; [reflexivity|]. discriminate. Qed.
