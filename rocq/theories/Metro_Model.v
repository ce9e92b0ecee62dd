(** * The Metropolis samplers: state, reset, one step along the chains, counters

    Models netket/sampler/metropolis.py and netket/sampler/metropolis_numpy.py.

    Everything the sampler calls but does not define -- the transition rule, the
    model evaluated at given parameters, the pseudo random generator, the real
    number comparison [uniform < exp(...)] -- is a field of the record [metro],
    over which all theorems quantify.  A configuration is a value of an arbitrary
    type [Cfg]; a batch is a list of configurations (one per chain of this rank).

    Simplifications: the model acts on each configuration of the batch separately
    ([m_logp] takes one configuration; a model mixing rows of a batch is not
    covered); log-probabilities are values of an arbitrary type [R]. *)
From Coq Require Import List ZArith Bool Lia QArith.
From Verif Require Import Base.
Import ListNotations.
Open Scope nat_scope.

(** netket/sampler/metropolis.py 203-257 (class MetropolisSampler) and
    netket/sampler/base.py 48-70 (class Sampler): the fields of the sampler plus
    the functions it is used with.
    - [m_zero] is a row of [jnp.zeros(..., hilbert.size)] (metropolis.py 275-277);
    - [m_logp p x] is [machine_pow * machine.apply(p, x).real] (310, 322-324);
    - [m_trans] is [rule.transition], returning the proposals and the optional
      log-probability correction; [m_random] is [rule.random_state];
      [m_rinit]/[m_rreset] are [rule.init_state]/[rule.reset];
    - [m_unif k n] is [jax.random.uniform(k, (n,))]; [m_split2]/[m_split3] are
      [jax.random.split];
    - [m_accept u lp' lp corr] is [u < exp(lp' - lp + corr)], or
      [u < exp(lp' - lp)] when there is no correction (327-332). *)
Record metro (Cfg Par R Key RS : Type) : Type := {
  m_chains : nat;            (* n_chains_per_rank *)
  m_sweeps : nat;            (* n_sweeps *)
  m_reset_chains : bool;
  m_zero : Cfg;
  m_logp : Par -> Cfg -> R;
  m_trans : Par -> RS -> Key -> list Cfg -> list Cfg * option (list R);
  m_random : Par -> RS -> Key -> list Cfg;
  m_rinit : Par -> Key -> RS;
  m_rreset : Par -> RS -> RS;
  m_unif : Key -> nat -> list R;
  m_split2 : Key -> Key * Key;
  m_split3 : Key -> Key * Key * Key;
  m_accept : R -> R -> R -> option R -> bool }.

Arguments m_chains {Cfg Par R Key RS}. Arguments m_sweeps {Cfg Par R Key RS}.
Arguments m_reset_chains {Cfg Par R Key RS}. Arguments m_zero {Cfg Par R Key RS}.
Arguments m_logp {Cfg Par R Key RS}. Arguments m_trans {Cfg Par R Key RS}.
Arguments m_random {Cfg Par R Key RS}. Arguments m_rinit {Cfg Par R Key RS}.
Arguments m_rreset {Cfg Par R Key RS}. Arguments m_unif {Cfg Par R Key RS}.
Arguments m_split2 {Cfg Par R Key RS}. Arguments m_split3 {Cfg Par R Key RS}.
Arguments m_accept {Cfg Par R Key RS}.

(** netket/sampler/metropolis.py 130-147 (MetropolisSamplerState). *)
Record mstate (Cfg Key RS : Type) : Type := MState {
  s_cfg : list Cfg;          (* σ *)
  s_rng : Key;
  s_rule : RS;
  s_steps : nat;             (* n_steps_proc *)
  s_acc : nat }.             (* n_accepted_proc *)

Arguments MState {Cfg Key RS}. Arguments s_cfg {Cfg Key RS}. Arguments s_rng {Cfg Key RS}.
Arguments s_rule {Cfg Key RS}. Arguments s_steps {Cfg Key RS}. Arguments s_acc {Cfg Key RS}.

(** The variables of [loops.Scope()] in [_sample_next], metropolis.py 307-313. *)
Record lstate (Cfg R Key : Type) : Type := LState {
  l_key : Key;
  l_cfg : list Cfg;
  l_lp : list R;             (* log_prob *)
  l_acc : nat }.             (* accepted *)

Arguments LState {Cfg R Key}. Arguments l_key {Cfg R Key}. Arguments l_cfg {Cfg R Key}.
Arguments l_lp {Cfg R Key}. Arguments l_acc {Cfg R Key}.

Section Model.
  Context {Cfg Par R Key RS : Type}.
  Variable M : metro Cfg Par R Key RS.

  (** metropolis.py 272-288, [_init_state] (called by base.py [init_state]). *)
  Definition init_state (p : Par) (key : Key) : mstate Cfg Key RS :=
    let '(key_state, key_rule) := m_split2 M key in
    let rule_state := m_rinit M p key_rule in
    let sigma := repeat (m_zero M) (m_chains M) in
    if m_reset_chains M then MState sigma key_state rule_state 0 0
    else
      let '(key_state, rng) := m_split2 M key_state in
      MState (m_random M p rule_state rng) key_state rule_state 0 0.

  (** metropolis.py 290-302, [_reset]. *)
  Definition reset (p : Par) (s : mstate Cfg Key RS) : mstate Cfg Key RS :=
    let '(new_rng, rng) := m_split2 M (s_rng s) in
    let sigma := if m_reset_chains M then m_random M p (s_rule s) rng else s_cfg s in
    let rule_state := m_rreset M p (s_rule s) in
    MState sigma new_rng rule_state 0 0.

  (** [jnp.where(b, x, y)] along the batch, metropolis.py 335, 338-340. *)
  Definition where_ {A : Type} (b : list bool) (x y : list A) : list A :=
    map (fun t : bool * (A * A) => if fst t then fst (snd t) else snd (snd t)) (combine b (combine x y)).

  (** [do_accept], metropolis.py 327-332. *)
  Definition do_accept (u lp' lp : list R) (corr : option (list R)) : list bool :=
    match corr with
    | Some c => map (fun t => m_accept M (fst t) (fst (snd t)) (fst (snd (snd t)))
                                       (Some (snd (snd (snd t)))))
                    (combine u (combine lp' (combine lp c)))
    | None => map (fun t => m_accept M (fst t) (fst (snd t)) (snd (snd t)) None)
                  (combine u (combine lp' lp))
    end.

  (** [do_accept.sum()], metropolis.py 326. *)
  Definition count (b : list bool) : nat := length (filter (fun x => x) b).

  (** One iteration of the loop over [n_sweeps], metropolis.py 315-340. *)
  Definition sweep (p : Par) (rs : RS) (s : lstate Cfg R Key) : lstate Cfg R Key :=
    let '(key, key1, key2) := m_split3 M (l_key s) in
    let '(sigp, corr) := m_trans M p rs key1 (l_cfg s) in
    let lp' := map (m_logp M p) sigp in
    let u := m_unif M key2 (m_chains M) in
    let b := do_accept u lp' (l_lp s) corr in
    LState key (where_ b sigp (l_cfg s)) (where_ b lp' (l_lp s)) (l_acc s + count b).

  Fixpoint sweeps (p : Par) (rs : RS) (n : nat) (s : lstate Cfg R Key) : lstate Cfg R Key :=
    match n with O => s | S n => sweeps p rs n (sweep p rs s) end.

  (** The scope before the loop, metropolis.py 307-313. *)
  Definition loop_start (p : Par) (s : mstate Cfg Key RS) : lstate Cfg R Key :=
    LState (snd (m_split2 M (s_rng s))) (s_cfg s) (map (m_logp M p) (s_cfg s)) (s_acc s).

  (** metropolis.py 304-350, [_sample_next]. *)
  Definition sample_next (p : Par) (s : mstate Cfg Key RS) : mstate Cfg Key RS * list Cfg :=
    let l := sweeps p (s_rule s) (m_sweeps M) (loop_start p s) in
    let s' := MState (l_cfg l) (fst (m_split2 M (s_rng s))) (s_rule s)
                     (s_steps s + m_sweeps M * m_chains M) (l_acc l) in
    (s', s_cfg s').

  (** netket/sampler/base.py, [_sample_chain]: [jax.lax.scan] of [sample_next]. *)
  Fixpoint sample_chain (p : Par) (n : nat) (s : mstate Cfg Key RS)
    : list (list Cfg) * mstate Cfg Key RS :=
    match n with
    | O => ([], s)
    | S n => let '(s, x) := sample_next p s in
             let '(xs, s) := sample_chain p n s in (x :: xs, s)
    end.

  (** The two ways a caller makes one process advance (base.py [reset],
      [sample_next], [sample]).  The parameters may change between calls. *)
  Inductive mop : Type :=
  | Reset (p : Par)
  | Next (p : Par)
  | Chain (p : Par) (n : nat).

  Definition do_op (s : mstate Cfg Key RS) (o : mop) : mstate Cfg Key RS :=
    match o with
    | Reset p => reset p s
    | Next p => fst (sample_next p s)
    | Chain p n => snd (sample_chain p n s)
    end.

  Definition do_ops (s : mstate Cfg Key RS) (os : list mop) : mstate Cfg Key RS :=
    fold_left do_op os s.

  (** All MPI ranks run the same program, each from its own key
      (base.py [init_state]: [mpi_split] gives every rank its own key). *)
  Definition world (p : Par) (keys : list Key) (os : list mop) : list (mstate Cfg Key RS) :=
    map (fun k => do_ops (init_state p k) os) keys.

  (** metropolis.py 181-184: [n_steps] (local counter times the number of ranks,
      evaluated on rank [r]) and [n_accepted] (MPI sum). *)
  Definition n_steps (w : list (mstate Cfg Key RS)) (r : nat) : option nat :=
    option_map (fun s => s_steps s * length w) (nth_error w r).
  Definition n_accepted (w : list (mstate Cfg Key RS)) : nat :=
    fold_right (fun s a => s_acc s + a) 0 w.

  (** metropolis.py 150-159, [acceptance]: [None] when no step was made. *)
  Definition acceptance (w : list (mstate Cfg Key RS)) (r : nat) : option Q :=
    match n_steps w r with
    | Some (S n) => Some (inject_Z (Z.of_nat (n_accepted w)) / inject_Z (Z.of_nat (S n)))%Q
    | _ => None
    end.

  (** base.py 403-423, [sample_next] with [state=None]: the state comes from
      [init_state] alone. *)
  Definition sample_next_fresh (p : Par) (key : Key) : mstate Cfg Key RS * list Cfg :=
    sample_next p (init_state p key).

End Model.

Arguments Reset {Par}. Arguments Next {Par}. Arguments Chain {Par}.

(** ** The numpy sampler *)

(** netket/sampler/metropolis_numpy.py 36-59 (MetropolisNumpySamplerState).
    [v_junk_a]/[v_junk_t] are the attributes [_accepted_samples]/[_total_samples]
    which [_reset] creates (183-184). *)
Record nstate (Cfg R Key RS : Type) : Type := NState {
  v_cfg : list Cfg;
  v_lv : list R;             (* log_values *)
  v_rng : Key;
  v_rule : RS;
  v_steps : nat;
  v_acc : nat;
  v_junk_a : nat;
  v_junk_t : nat }.

Arguments NState {Cfg R Key RS}. Arguments v_cfg {Cfg R Key RS}. Arguments v_lv {Cfg R Key RS}.
Arguments v_rng {Cfg R Key RS}. Arguments v_rule {Cfg R Key RS}. Arguments v_steps {Cfg R Key RS}.
Arguments v_acc {Cfg R Key RS}. Arguments v_junk_a {Cfg R Key RS}. Arguments v_junk_t {Cfg R Key RS}.

Section Numpy.
  Context {Cfg Par R Key RS : Type}.
  Variable M : metro Cfg Par R Key RS.
  Variable zero_lv : R.       (* the entries of np.zeros(n_batches) *)
  Variable nodes : nat.       (* mpi.n_nodes *)

  (** metropolis_numpy.py 137-165, [_init_state].  The mutable generator is
      threaded: every draw splits the key. *)
  Definition np_init (p : Par) (key : Key) : nstate Cfg R Key RS :=
    let rule_state := m_rinit M p key in
    let lv := repeat zero_lv (m_chains M) in
    if m_reset_chains M then
      NState (repeat (m_zero M) (m_chains M)) lv key rule_state 0 0 0 0
    else
      let '(key, k) := m_split2 M key in
      NState (m_random M p rule_state k) lv key rule_state 0 0 0 0.

  (** metropolis_numpy.py 168-183, [_reset]: note which counters are zeroed. *)
  Definition np_reset (p : Par) (s : nstate Cfg R Key RS) : nstate Cfg R Key RS :=
    let '(key, sigma) :=
      if m_reset_chains M then
        let '(key, k) := m_split2 M (v_rng s) in (key, m_random M p (v_rule s) k)
      else (v_rng s, v_cfg s) in
    NState sigma (map (m_logp M p) sigma) key (m_rreset M p (v_rule s))
           (v_steps s) (v_acc s) 0 0.

  (** metropolis_numpy.py 264-281, [acceptance_kernel], as a loop over the chains
      updating configurations and values in place. *)
  Fixpoint accept_kernel (sigp : list Cfg) (lv' : list R) (corr : option (list R)) (u : list R)
           (sigma : list Cfg) (lv : list R) : list Cfg * list R * nat :=
    match sigma, sigp, lv, lv', u with
    | x :: sigma, y :: sigp, l :: lv, l' :: lv', r :: u =>
        let c := match corr with Some (c :: _) => Some c | _ => None end in
        let corr := match corr with Some (_ :: cs) => Some cs | _ => None end in
        let '(sigma, lv, n) := accept_kernel sigp lv' corr u sigma lv in
        if m_accept M r l' l c then (y :: sigma, l' :: lv, S n) else (x :: sigma, l :: lv, n)
    | _, _, _, _, _ => (sigma, lv, 0)
    end.

  (** One iteration of the loop of [_sample_next], metropolis_numpy.py 197-215. *)
  Definition np_sweep (p : Par) (rs : RS) (s : lstate Cfg R Key) : lstate Cfg R Key :=
    let '(key, key1, key2) := m_split3 M (l_key s) in
    let '(sigp, corr) := m_trans M p rs key1 (l_cfg s) in
    let u := m_unif M key2 (length (l_cfg s)) in
    let '(sigma, lv, n) :=
      accept_kernel sigp (map (m_logp M p) sigp) corr u (l_cfg s) (l_lp s) in
    LState key sigma lv (l_acc s + n).

  Fixpoint np_sweeps (p : Par) (rs : RS) (n : nat) (s : lstate Cfg R Key) : lstate Cfg R Key :=
    match n with O => s | S n => np_sweeps p rs n (np_sweep p rs s) end.

  (** metropolis_numpy.py 186-220, [_sample_next]; [sampler.n_chains] is the total
      over all ranks (base.py 132-139), not [n_chains_per_rank]. *)
  Definition np_next (p : Par) (s : nstate Cfg R Key RS) : nstate Cfg R Key RS :=
    let l := np_sweeps p (v_rule s) (m_sweeps M) (LState (v_rng s) (v_cfg s) (v_lv s) 0) in
    NState (l_cfg l) (l_lp l) (l_key l) (v_rule s)
           (v_steps s + m_sweeps M * (m_chains M * nodes)) (v_acc s + l_acc l)
           (v_junk_a s) (v_junk_t s).

  (** numpy assignment [samples[i] = σ] of a (k, size) array into a (total, size)
      row block: equal leading sizes, or k = 1 which is broadcast. *)
  Definition assign_rows (total : nat) (sigma : list Cfg) : res (list Cfg) :=
    if Nat.eqb (length sigma) total then Ok sigma
    else match sigma with
         | [x] => Ok (repeat x total)
         | _ => Err ValueError
         end.

  (** metropolis_numpy.py 230-238, [_sample_chain]. *)
  Fixpoint np_chain (p : Par) (n : nat) (s : nstate Cfg R Key RS)
    : res (list (list Cfg) * nstate Cfg R Key RS) :=
    match n with
    | O => Ok ([], s)
    | S n =>
        let s := np_next p s in
        let? row := assign_rows (m_chains M * nodes) (v_cfg s) in
        let? r := np_chain p n s in
        Ok (row :: fst r, snd r)
    end.

  (** metropolis_numpy.py 92-100: [n_steps] and [n_accepted]. *)
  Definition np_n_steps (s : nstate Cfg R Key RS) : nat := v_steps s * nodes.
  Definition np_n_accepted (w : list (nstate Cfg R Key RS)) : nat :=
    fold_right (fun s a => v_acc s + a) 0 w.
End Numpy.
