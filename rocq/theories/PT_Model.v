(** * The parallel tempering sampler: exchange of inverse temperatures
    (netket/sampler/metropolis_pt.py)

    The configurations of the replicas and the values of the machine enter only
    through the outcomes of the two comparisons with uniform numbers (accept a move,
    swap a pair); these outcomes are inputs here, so that every sequence of outcomes is
    covered.  Inverse temperatures are rational numbers; [None] in a statistic is a
    division by zero (nan or inf). *)
From Coq Require Import List Arith ZArith QArith Bool.
From Verif Require Import Base.
Import ListNotations.
Open Scope nat_scope.

Section Rows.
  Context {A : Type}.
  Variable d : A.

  (** jax: row[idxs]; indices past the end read the last element. *)
  Definition gather (row : list A) (idxs : list nat) : list A :=
    map (fun i => nth (Nat.min i (length row - 1)) row d) idxs.

  (** jax.ops.index_update(row, idxs, vals); indices past the end are dropped. *)
  Fixpoint scatter (row : list A) (idxs : list nat) (vals : list A) : list A :=
    match idxs, vals with
    | i :: idxs, v :: vals => scatter (upd row i v) idxs vals
    | _, _ => row
    end.

  (** metropolis_pt.py 278-294: swap_rows, on the row of one chain. *)
  Definition swap_rows (row : list A) (idxs inn : list nat) : list A :=
    let proposed := scatter row idxs (gather row inn) in
    scatter proposed inn (gather row idxs).

  (** jnp.where(do_swap, a, b) on rows. *)
  Definition where_row (do_swap : list bool) (a b : list A) : list A :=
    map (fun t : bool * (A * A) => if fst t then fst (snd t) else snd (snd t)) (combine do_swap (combine a b)).
End Rows.

(** 271-273: jnp.arange(0, n_replicas, 2) + swap_order. *)
Definition swap_idxs (n order : nat) : list nat :=
  map (fun p => 2 * p + order) (seq 0 ((n + 1) / 2)).

(** 243: (idxs + 1) % n_replicas. *)
Definition swap_inn (n order : nat) : list nat :=
  map (fun i => (i + 1) mod n) (swap_idxs n order).

(** jnp.roll(x, 1). *)
Definition roll1 {A} (d : A) (l : list A) : list A :=
  match l with [] => [] | _ => last l d :: removelast l end.

(** 312-329: [pairs] are the outcomes of [uniform < prob_rescaled].  The uniform numbers
    have shape (n_chains, n_replicas // 2) and the probabilities
    (n_chains, (n_replicas + 1) // 2): for an odd number of replicas the two shapes
    either cannot be broadcast (n_replicas >= 5) or lead to a reshape, or to a vmap
    over arrays, of sizes that do not match (1 and 3): an exception in every case. *)
Definition do_swap_row (n order : nat) (pairs : list bool) : res (list bool) :=
  if Nat.odd n then Err ValueError
  else let dup := flat_map (fun b => [b; b]) pairs in
       Ok (if order =? 0 then dup else roll1 false dup).

(** 364-376: where the index of the replica of inverse temperature 1 goes. *)
Definition proposed_index (n order i : nat) : nat :=
  Z.to_nat ((Z.of_nat i + (- (Z.of_nat order mod 2) * 2 + 1)
                          * (- (Z.of_nat i mod 2) * 2 + 1)) mod (Z.of_nat n)).

(** State of one chain (MetropolisPtSamplerState restricted to the row of that chain). *)
Record pchain := PChain {
  p_beta : list Q;                 (* beta *)
  p_zero : nat;                    (* beta_0_index *)
  p_acc : list nat;                (* n_accepted_per_beta *)
  p_pos : option Q;                (* beta_position *)
  p_diff : option Q;               (* beta_diffusion *)
  p_exch : nat                     (* exchange_steps (shared by the chains) *)
}.

(** 147-148: beta = 1 - arange(n) / n, one row. *)
Definition betas (n : nat) : list Q :=
  map (fun i => (1 - inject_Z (Z.of_nat i) / inject_Z (Z.of_nat n))%Q) (seq 0 n).

(** 137-164: _init_state. *)
Definition pt_init (n : nat) : pchain :=
  PChain (betas n) 0 (repeat 0 n) (Some 0%Q) (Some 0%Q) 0.

(** 166-188: _reset; beta and beta_0_index are kept (the lines are commented out). *)
Definition pt_reset (n : nat) (s : pchain) : pchain :=
  PChain (p_beta s) (p_zero s) (repeat 0 n) (Some 0%Q) (Some 0%Q) 0.

(** Outcomes of the random decisions of one sweep. *)
Record outcome := Outcome {
  o_accept : list bool;            (* do_accept, one per replica *)
  o_order : nat;                   (* swap_order: 0 or 1 *)
  o_pairs : list bool              (* uniform < prob_rescaled, one per pair *)
}.

Definition odiv (a : option Q) (b : nat) : option Q :=
  match a, b with
  | Some a, S _ => Some (a / inject_Z (Z.of_nat b))%Q
  | _, _ => None
  end.
Definition oplus (a b : option Q) : option Q :=
  match a, b with Some a, Some b => Some (a + b)%Q | _, _ => None end.
Definition omult (a b : option Q) : option Q :=
  match a, b with Some a, Some b => Some (a * b)%Q | _, _ => None end.
Definition ominus (a b : option Q) : option Q :=
  match a, b with Some a, Some b => Some (a - b)%Q | _, _ => None end.

Definition b2n (b : bool) : nat := if b then 1 else 0.

(** 216-391: the i-th sweep of _sample_next.  [state] is the state at the beginning of
    _sample_next, [s] the loop variables; the proposed inverse temperatures (265) enter
    only the probabilities of the swaps: [s.beta = new_beta] is commented out (334). *)
Definition pt_sweep (n : nat) (state : pchain) (i : nat) (o : outcome) (s : pchain) : res pchain :=
  let acc := map (fun t => fst t + b2n (snd t)) (combine (p_acc s) (o_accept o)) in
  let idxs := swap_idxs n (o_order o) in
  let inn := swap_inn n (o_order o) in
  let? do_swap := do_swap_row n (o_order o) (o_pairs o) in
  let moved := nth (p_zero state) do_swap false in
  let prop := proposed_index n (o_order o) (p_zero state) in
  let zero := if moved then prop else p_zero s in
  let z := Some (inject_Z (Z.of_nat zero)) in
  let delta := ominus z (p_pos s) in
  let pos := oplus (p_pos s) (odiv delta (p_exch state + i)) in
  let delta2 := ominus z pos in
  Ok (PChain (p_beta s) zero
        (where_row do_swap (swap_rows 0 acc idxs inn) acc)
        pos (oplus (p_diff s) (omult delta delta2)) (p_exch s)).

Fixpoint pt_sweeps (n : nat) (state : pchain) (i : nat) (os : list outcome) (s : pchain) : res pchain :=
  match os with
  | [] => Ok s
  | o :: os => let? s' := pt_sweep n state i o s in pt_sweeps n state (S i) os s'
  end.

(** 190-410: _sample_next on one chain, n_sweeps = length os; also returns the replica of
    that chain whose configuration is the sample (406-410). *)
Definition pt_next (n : nat) (os : list outcome) (s : pchain) : res (pchain * nat) :=
  let? s' := pt_sweeps n s 0 os s in
  let s'' := PChain (p_beta s') (p_zero s') (p_acc s') (p_pos s') (p_diff s')
               (p_exch s + length os) in
  Ok (s'', p_zero s'').

(** Successive calls of reset and sample_next. *)
Inductive pt_op := PReset | PNext (os : list outcome).

Fixpoint pt_run (n : nat) (ops : list pt_op) (s : pchain) : res pchain :=
  match ops with
  | [] => Ok s
  | PReset :: ops => pt_run n ops (pt_reset n s)
  | PNext os :: ops => let? t := pt_next n os s in pt_run n ops (fst t)
  end.

(** The new inverse temperatures computed by the exchange: swap_rows of 265 combined
    with the commented out line 310. *)
Definition pt_exchange (n order : nat) (pairs : list bool) (beta : list Q) : res (list Q) :=
  let? do_swap := do_swap_row n order pairs in
  Ok (where_row do_swap (swap_rows 0%Q beta (swap_idxs n order) (swap_inn n order)) beta).

(** 113-131: the check of __post_init__ when NETKET_EXPERIMENTAL is set; [is_int] is
    isinstance(n_replicas, int). *)
Definition pt_post_init (is_int : bool) (n : Z) : res unit :=
  if negb is_int && (0 <? n)%Z && (n mod 2 =? 0)%Z then Err ValueError else Ok tt.
