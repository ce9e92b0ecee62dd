(** * Transition rules: local flips, exchanges, Hamiltonian moves *)
From Coq Require Import List ZArith Bool Lia Reals.
From Verif Require Import Base Hilbert_Model HilbertOps_Model.
Import ListNotations.
Open Scope nat_scope.

Definition cfg := list Z.

(** ** LocalRule *)

(** netket/sampler/rules/local.py 42-51, one chain: [i] is the drawn site, [k] the
    random integer drawn by [flip_state]. *)
Definition local_move (h : hilbert) (i : nat) (k : Z) (x : cfg) : cfg :=
  fst (flip_state h k x (Z.of_nat i)).

(** netket/sampler/rules/local_numpy.py 47-56, [_kernel] for one chain. *)
Definition np_local_move (local_states : list Z) (i : nat) (r : nat) (x : cfg) : cfg :=
  let offset := if Z.leb (nth i x 0%Z) (nth r local_states 0%Z) then 1 else 0 in
  upd x i (nth (r + offset) local_states 0%Z).

(** ** ExchangeRule *)

(** netket/sampler/rules/exchange.py 65-71, [scalar_update_fun] (jax indexing). *)
Definition exchange_move (c : Z * Z) (x : cfg) : cfg :=
  let '(si, sj) := c in
  let xp := jax_set x si (jax_get x sj) in
  jax_set xp sj (jax_get x si).

(** exchange.py 57-76, [transition] of a batch with the drawn cluster indices. *)
Definition exchange_transition (clusters : list (Z * Z)) (ids : list nat) (xs : list cfg) : list cfg :=
  map (fun t => exchange_move (nth (fst t) clusters (0, 0)%Z) (snd t)) (combine ids xs).

(** exchange.py 82-96, [compute_clusters]: [dist i j] is the graph distance,
    [None] for disconnected nodes (infinity). *)
Definition compute_clusters (size : nat) (dist : nat -> nat -> option nat) (d_max : nat) : list (Z * Z) :=
  flat_map (fun i =>
    flat_map (fun j =>
      match dist i j with
      | Some d => if Nat.leb d d_max then [(Z.of_nat i, Z.of_nat j)] else []
      | None => []
      end) (seq (S i) (size - S i))) (seq 0 size).

(** ** HamiltonianRule *)

(** [get_conn_flattened] of a batch: the connected configurations one after the
    other, and the running totals ([sections]). *)
Fixpoint sections_from (low : nat) (ls : list (list cfg)) : list nat :=
  match ls with
  | [] => []
  | l :: ls => (low + length l) :: sections_from (low + length l) ls
  end.
Definition conn_flattened (conn : cfg -> list cfg) (xs : list cfg) : list cfg * list nat :=
  (concat (map conn xs), sections_from 0 (map conn xs)).

(** [int(np.floor(u * n))]. *)
Definition floor_draw (u : R) (n : nat) : nat := Z.to_nat (Int_part (u * INR n)).

(** netket/sampler/rules/hamiltonian.py 109-116, [_choose]: proposals and
    logarithms of the number of connected configurations; reading past the end of
    the connected configurations is a fault. *)
Fixpoint choose (low : nat) (vp : list cfg) (sections : list nat) (rnd : list R)
  : res (list cfg * list R) :=
  match sections, rnd with
  | s :: sections, u :: rnd =>
      let n_rand := low + floor_draw u (s - low) in
      match nth_error vp n_rand with
      | None => Err Fault
      | Some y =>
          let? r := choose s vp sections rnd in
          Ok (y :: fst r, ln (INR (s - low)) :: snd r)
      end
  | _, _ => Ok ([], [])
  end.

(** netket/operator/_abstract_operator.py 224-233, [_n_conn_from_sections]. *)
Fixpoint n_conn_from_sections (low : nat) (out : list nat) : list nat :=
  match out with
  | [] => []
  | s :: out => (s - low) :: n_conn_from_sections s out
  end.

(** hamiltonian.py 66-103, [_transition] (and hamiltonian_numpy.py 71-86). *)
Definition hamiltonian_transition (conn : cfg -> list cfg) (xs : list cfg) (rnd : list R)
  : res (list cfg * list R) :=
  let '(vp, sections) := conn_flattened conn xs in
  let? r := choose 0 vp sections rnd in
  let n' := n_conn_from_sections 0 (snd (conn_flattened conn (fst r))) in
  Ok (fst r, map (fun t => (fst t - ln (INR (snd t)))%R) (combine (snd r) n')).
