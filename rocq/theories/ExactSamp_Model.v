(** * The exact sampler (netket/sampler/exact.py)

    Absolute values of the amplitudes (to_array, see ToArray_Model) and uniform draws are
    rational numbers; the keys of the draws are those of Keys_Model. *)
From Coq Require Import List Arith ZArith QArith Bool.
From Verif Require Import Base Hilbert_Model ARSamp_Model.
Import ListNotations.
Open Scope Q_scope.

Fixpoint qpow (a : Q) (n : nat) : Q := match n with O => 1 | S n => a * qpow a n end.
Definition total (p : list Q) : Q := fold_right Qplus 0 p.

(** jax.random.choice(key, n, p=p) for the draw [u]:
    p_cuml = cumsum(p); r = p_cuml[-1] * (1 - u); searchsorted(p_cuml, r) *)
Definition jax_choice (p : list Q) (u : Q) : nat :=
  let c := cumsum 0 p in
  let r := last c 0 * (1 - u) in
  length (filter (fun x => Qgtb r x) c).

(** 54-61 *)
Definition es_init (n_states : nat) : list Q := repeat 0 n_states.
(** 60-66; [amps] are the absolute values of the amplitudes.  If all of them vanish the
    result is not a number. *)
Definition es_reset (amps : list Q) (machine_pow : nat) : res (list Q) :=
  let pdf := map (fun a => qpow a machine_pow) amps in
  if Qeq_bool (total pdf) 0 then Err Fault else Ok (map (fun x => x / total pdf) pdf).

(** 126-157; [us] are the chain_length * n_chains draws *)
Definition es_sample_chain (h : hilbert) (pdf : list Q) (chain_length n_chains : nat) (us : list Q)
    : res (list (list (list Z))) :=
  let? samples := sequence (map (fun u => numbers_to_states h (Z.of_nat (jax_choice pdf u))) us) in
  Ok (chunks chain_length n_chains samples).
(** 71-93; [us] are the n_chains draws *)
Definition es_sample_next (h : hilbert) (pdf : list Q) (us : list Q) : res (list (list Z)) :=
  sequence (map (fun u => numbers_to_states h (Z.of_nat (jax_choice pdf u))) us).

(** base.py 426-452 and 238-263: the functions called without a state *)
Definition sample_without_state (h : hilbert) (amps : list Q) (machine_pow chain_length n_chains : nat) (us : list Q) :=
  let? pdf := es_reset amps machine_pow in es_sample_chain h pdf chain_length n_chains us.
Definition sample_next_without_state (h : hilbert) (n_states : nat) (us : list Q) :=
  es_sample_next h (es_init n_states) us.

(** A state in use: the distribution is stored by [reset] and used until the next one. *)
Inductive es_op := EReset (amps : list Q) (machine_pow : nat) | ENext (us : list Q) | EChain (chain_length n_chains : nat) (us : list Q).
(** one call; the second component lists the batches returned *)
Definition op_step (h : hilbert) (o : es_op) (pdf : list Q) : res (list Q * list (list (list Z))) :=
  match o with
  | EReset amps pow => let? p := es_reset amps pow in Ok (p, [])
  | ENext us => let? s := es_sample_next h pdf us in Ok (pdf, [s])
  | EChain l n us => let? s := es_sample_chain h pdf l n us in Ok (pdf, s)
  end.
Fixpoint ops_run (h : hilbert) (ops : list es_op) (pdf : list Q) : res (list Q * list (list (list Z))) :=
  match ops with
  | [] => Ok (pdf, [])
  | o :: ops => let? r := op_step h o pdf in let? r' := ops_run h ops (fst r) in Ok (fst r', snd r ++ snd r')
  end.
