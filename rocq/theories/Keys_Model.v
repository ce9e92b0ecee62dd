(** * Random keys (netket/jax/utils.py 321-389) and how the samplers and states use them

    jax.random.split is a free constructor: keys are trees of splits from a seed, and two
    keys are equal only if they were obtained in the same way.  Everything that is not a key
    is left out: an operation of a sampler is the new key of its state and the list of keys
    that it hands to a random function (or to a rule, a model, ...). *)
From Coq Require Import List Arith ZArith Bool.
Import ListNotations.

Inductive key := Seed (n : Z) | Child (k : key) (num i : nat).
(** jax.random.split(key, num) *)
Definition split (k : key) (num : nat) : list key := map (Child k num) (seq 0 num).
(** unpacking: the i-th of them; the indices in this file are constants below num, or ranks *)
Definition sub (k : key) (num i : nat) : key := nth i (split k num) k.

(** ** utils.py 321-358 *)
Inductive seed_t := SNone | SInt (n : Z) | SKey (k : key).
(** 326-331; [rnd] is random_seed() *)
Definition as_key (rnd : Z) (s : seed_t) : key :=
  match s with SNone => Seed rnd | SInt n => Seed n | SKey k => k end.
(** 333: broadcast from rank 0; the argument has an entry for every rank *)
Definition prng_key (args : list (Z * seed_t)) : key :=
  match args with [] => Seed 0 | (rnd, s) :: _ => as_key rnd s end.
(** 354-358 on rank [r]; the key is the same on all ranks *)
Definition mpi_split (k : key) (n_nodes r : nat) : key := nth r (split k n_nodes) k.
(** sampler/base.py 210-211: the key given to _init_state on rank [r] *)
Definition init_key (args : list (Z * seed_t)) (r : nat) : key :=
  mpi_split (prng_key args) (length args) r.

(** ** utils.py 361-389: PRNGSeq is its current key *)
Definition seq_next (cur : key) : key * list key := let c := sub cur 1 0 in (c, [c]).
Definition seq_take (num : nat) (cur : key) : key * list key :=
  let keys := split cur (num + 1) in (last keys cur, removelast keys).

(** ** The samplers; [tr] are the keys used by the rule in one transition *)
Definition whole (k : key) : list key := [k].
(** sampler/rules/local.py 43 *)
Definition local_rule (k : key) : list key := [sub k 2 0; sub k 2 1].

(** metropolis.py 272-288 *)
Definition metro_init (reset_chains : bool) (k : key) : key * list key :=
  let key_state := sub k 2 0 in
  let key_rule := sub k 2 1 in
  if reset_chains then (key_state, [key_rule])
  else (sub key_state 2 0, [key_rule; sub key_state 2 1]).
(** 290-302 *)
Definition metro_reset (reset_chains : bool) (k : key) : key * list key :=
  (sub k 2 0, if reset_chains then [sub k 2 1] else []).
(** 315-339 *)
Fixpoint metro_sweeps (tr : key -> list key) (n : nat) (s : key) : list key :=
  match n with
  | O => []
  | S n => tr (sub s 3 1) ++ [sub s 3 2] ++ metro_sweeps tr n (sub s 3 0)
  end.
(** 304-351 *)
Definition metro_next (tr : key -> list key) (n_sweeps : nat) (k : key) : key * list key :=
  (sub k 2 0, metro_sweeps tr n_sweeps (sub k 2 1)).

(** metropolis_pt.py 137-164, 166-188, 216-315 *)
Definition pt_init (k : key) : key * list key := (sub k 2 0, [sub k 2 1]).
Definition pt_reset (k : key) : key * list key := (sub k 2 0, [sub k 2 1]).
Fixpoint pt_sweeps (tr : key -> list key) (n : nat) (s : key) : list key :=
  match n with
  | O => []
  | S n => tr (sub s 5 1) ++ [sub s 5 2; sub s 5 3; sub s 5 4] ++ pt_sweeps tr n (sub s 5 0)
  end.
Definition pt_next (tr : key -> list key) (n_sweeps : nat) (k : key) : key * list key :=
  (sub k 2 0, pt_sweeps tr n_sweeps (sub k 2 1)).

(** exact.py 54-61, 63-69, 71-93, 125-157 *)
Definition exact_init (k : key) : key * list key := (k, []).
Definition exact_reset (k : key) : key * list key := (k, []).
Definition exact_chain (k : key) : key * list key := (sub k 2 0, [sub k 2 1]).

(** autoreg.py 75-81, 83-84, 95-136 *)
Definition ar_init (k : key) : key * list key := (sub k 2 0, [sub k 2 1]).
Definition ar_reset (k : key) : key * list key := (k, []).
Fixpoint ar_scan (n : nat) (s : key) : list key :=
  match n with O => [] | S n => sub s 2 1 :: ar_scan n (sub s 2 0) end.
Definition ar_chain (n_sites : nat) (k : key) : key * list key :=
  (sub k 3 0, sub k 3 1 :: ar_scan n_sites (sub k 3 2)).

(** ** Whole runs *)
Inductive sampler :=
| Metropolis (reset_chains : bool) (tr : key -> list key) (n_sweeps : nat)
| Tempering (tr : key -> list key) (n_sweeps : nat)
| Exact
| AutoReg (n_sites : nat).
Inductive op := Reset | Sample (chain_length : nat).

Fixpoint times (f : key -> key * list key) (n : nat) (k : key) : key * list key :=
  match n with
  | O => (k, [])
  | S n => let '(k1, a) := f k in let '(k2, b) := times f n k1 in (k2, a ++ b)
  end.

Definition init (s : sampler) (k : key) : key * list key :=
  match s with
  | Metropolis rc _ _ => metro_init rc k
  | Tempering _ _ => pt_init k
  | Exact => exact_init k
  | AutoReg _ => ar_init k
  end.
(** base.py 455-489 (scan of sample_next), or the sampler's own _sample_chain *)
Definition apply (s : sampler) (o : op) (k : key) : key * list key :=
  match s, o with
  | Metropolis rc _ _, Reset => metro_reset rc k
  | Metropolis _ tr n, Sample l => times (metro_next tr n) l k
  | Tempering _ _, Reset => pt_reset k
  | Tempering tr n, Sample l => times (pt_next tr n) l k
  | Exact, Reset => exact_reset k
  | Exact, Sample _ => exact_chain k
  | AutoReg _, Reset => ar_reset k
  | AutoReg n, Sample _ => ar_chain n k
  end.
Fixpoint run (s : sampler) (ops : list op) (k : key) : key * list key :=
  match ops with
  | [] => (k, [])
  | o :: ops => let '(k1, a) := apply s o k in let '(k2, b) := run s ops k1 in (k2, a ++ b)
  end.
(** everything used on a rank whose sampler state was made from [k] *)
Definition life (s : sampler) (ops : list op) (k : key) : list key :=
  let '(k1, a) := init s k in a ++ snd (run s ops k1).

(** ** vqs/mc_state.py 213-222, 245-251: the key the parameters are made from, and the seed of
    the sampler.  [args] are the seeds on the ranks, the same function argument on all of
    them; PRNGKey is called twice with the same seed, which matters for None only. *)
Definition state_keys (variables_given : bool) (seed sampler_seed : seed_t) (rnd : Z) : list key * seed_t :=
  (if variables_given then [] else [as_key rnd seed],
   match sampler_seed, seed with
   | SNone, SNone => SNone
   | SNone, s => SKey (sub (as_key rnd s) 2 1)
   | s, _ => s
   end).
(** 258-269: assigning a sampler makes a new sampler state from the stored seed *)
Definition assign_sampler (s : sampler) (stored : seed_t) (rnd : Z) (n_nodes r : nat) (ops : list op) : list key :=
  life s ops (mpi_split (as_key rnd stored) n_nodes r).

(** vqs/mc_mixed_state.py 106-126, 156-165: the seeds of the samplers for the matrix and for
    its diagonal *)
Definition mixed_sampler_seeds (seed sampler_seed : seed_t) (rnd rnd' : Z) : seed_t * seed_t :=
  let k := as_key rnd seed in
  let seed1 := SKey (sub k 2 0) in
  let seed_diag := SKey (sub k 2 1) in
  let '(ss, ssd) := match sampler_seed with
                    | SNone => (SNone, SNone)
                    | s => let k' := as_key rnd' s in (SKey (sub k' 2 0), SKey (sub k' 2 1))
                    end in
  (snd (state_keys false seed1 ss rnd'), snd (state_keys true seed_diag ssd rnd')).
