(** * Full state vectors (netket/nn/utils.py)

    Real arithmetic is exact; a log-amplitude is a pair (real part, imaginary part) or
    -inf ([None]).  All MPI ranks are modelled at once: a collective sees the list of
    their local values.  An exception on one rank aborts the run. *)
From Coq Require Import List Arith Bool Reals.
From Verif Require Import Base Masked_Model.
Import ListNotations.
Open Scope nat_scope.

(** int(np.ceil(a / b)) for positive b *)
Definition ceil_nat (a b : nat) : nat := (a + b - 1) / b.

(** utils.py 27-33: the numbers of the states each rank evaluates. *)
Definition padded (n_states n_nodes : nat) : nat := ceil_nat n_states n_nodes * n_nodes.
Definition states_per_rank (n_states n_nodes : nat) : list (list nat) :=
  reshape n_nodes (padded n_states n_nodes / n_nodes)
    (seq 0 n_states ++ seq 0 (padded n_states n_nodes - n_states)).

Open Scope R_scope.
Definition cexp (z : R * R) : R * R := (exp (fst z) * cos (snd z), exp (fst z) * sin (snd z)).
Definition cexp_opt (z : option (R * R)) : R * R := match z with Some z => cexp z | None => (0, 0) end.
Definition cnorm2 (z : R * R) : R := fst z * fst z + snd z * snd z.
Definition rsum (l : list R) : R := fold_right Rplus 0 l.
(** x.real.max() over the finite entries of all ranks; [None] if there are none. *)
Definition omax (a : option R) (z : option (R * R)) : option R :=
  match a, z with
  | None, None => None
  | None, Some z => Some (fst z)
  | Some a, None => Some a
  | Some a, Some z => Some (Rmax a (fst z))
  end.

(** 61-65: the last rank overwrites its last n_fake entries with -inf
    (log_psi_local[-n_fake:], a slice that is cut off at the beginning of the array). *)
Definition drop_fake (n_fake : nat) (logs : list (option (R * R))) : list (option (R * R)) :=
  firstn (length logs - n_fake) logs ++ repeat None (Nat.min n_fake (length logs)).
Fixpoint on_last {A} (f : A -> A) (l : list A) : list A :=
  match l with
  | [] => []
  | [x] => [f x]
  | x :: l => x :: on_last f l
  end.

(** 49-77 on all ranks. *)
Definition to_array_ranks (log_psi : nat -> R * R) (ranks : list (list nat)) (n_states : nat) (normalize : bool)
  : list (R * R) :=
  let n_fake := (length (hd [] ranks) * length ranks - n_states)%nat in
  let logs := map (map (fun i => Some (log_psi i))) ranks in
  let logs := if (0 <? n_fake)%nat then on_last (drop_fake n_fake) logs else logs in
  let logs := if normalize then
      match fold_left omax (concat logs) None with
      | Some m => map (map (option_map (fun z => (fst z - m, snd z)))) logs
      | None => logs
      end else logs in
  let psi := map (map cexp_opt) logs in
  let psi := if normalize then
      let norm2 := rsum (map (fun p => sqrt (rsum (map cnorm2 p)) ^ 2) psi) in
      map (map (fun z => (fst z / sqrt norm2, snd z / sqrt norm2))) psi
    else psi in
  firstn n_states (concat psi).

(** 10-35; numbers_to_states raises ValueError for a number outside the space. *)
Definition to_array (is_indexable : bool) (n_states n_nodes : nat) (log_psi : nat -> R * R) (normalize : bool)
  : res (list (R * R)) :=
  if negb is_indexable then Err RuntimeError else
  let ranks := states_per_rank n_states n_nodes in
  if existsb (fun i => n_states <=? i)%nat (concat ranks) then Err ValueError
  else Ok (to_array_ranks log_psi ranks n_states normalize).

(** 80-93: density matrix of [L] physical states; division by the complex trace (zero
    trace gives non-finite entries, here excluded by hypothesis). *)
Definition cadd (a b : R * R) : R * R := (fst a + fst b, snd a + snd b).
Definition cdiv (a b : R * R) : R * R :=
  ((fst a * fst b + snd a * snd b) / cnorm2 b, (snd a * fst b - fst a * snd b) / cnorm2 b).
Definition mat_trace (L : nat) (rho : list (list (R * R))) : R * R :=
  fold_right cadd (0, 0) (map (fun i => nth i (nth i rho []) (0, 0)) (seq 0 L)).
Definition to_matrix (is_indexable : bool) (L n_nodes : nat) (log_psi : nat -> R * R) (normalize : bool)
  : res (list (list (R * R))) :=
  if negb is_indexable then Err RuntimeError else
  let? psi := to_array is_indexable (L * L) n_nodes log_psi false in
  let rho := reshape L L psi in
  Ok (if normalize then let tr := mat_trace L rho in map (map (fun z => cdiv z tr)) rho else rho).
