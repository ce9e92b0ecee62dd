(** * Mean and variance over all MPI ranks (netket/stats/mpi_stats.py,
    netket/utils/mpi/primitives.py)

    Numbers are complex with rational parts.  An array of which one axis is reduced is
    the list of its fibres along that axis (one fibre, the flattened array, for
    axis=None); the functions below act on one fibre.  The argument of a collective
    function is the list of the fibres held by the ranks; the element [k] of the result is
    what rank [k] gets.  allreduce is the sum over the ranks. *)
From Coq Require Import List ZArith QArith Qcanon.
Import ListNotations.
Open Scope Qc_scope.

Definition cplx : Type := Qc * Qc.
Definition cadd (a b : cplx) : cplx := (fst a + fst b, snd a + snd b).
Definition csub (a b : cplx) : cplx := (fst a - fst b, snd a - snd b).
Definition c0 : cplx := (0, 0).
Definition cabs2 (a : cplx) : Qc := fst a * fst a + snd a * snd a.       (* abs(a) ** 2 *)
Definition cdivr (a : cplx) (q : Qc) : cplx := (fst a / q, snd a / q).
Definition nQc (n : nat) : Qc := Q2Qc (inject_Z (Z.of_nat n)).

Fixpoint csum (l : list cplx) : cplx := match l with [] => c0 | x :: l => cadd x (csum l) end.
Fixpoint qsum (l : list Qc) : Qc := match l with [] => 0 | x :: l => x + qsum l end.

(** a.mean(axis), on one rank. *)
Definition local_mean (a : list cplx) : cplx := cdivr (csum a) (nQc (length a)).

(** primitives.py 39-58 and 116-130: mpi_sum_jax, mpi_mean_jax; every rank gets the same. *)
Definition mpi_sum (xs : list cplx) : cplx := csum xs.
Definition mpi_mean (xs : list cplx) : cplx := cdivr (mpi_sum xs) (nQc (length xs)).

(** mpi_stats.py 41-62. *)
Definition mean (ranks : list (list cplx)) : cplx := mpi_mean (map local_mean ranks).

(** 20-38: what every rank gets. *)
Definition subtract_mean (ranks : list (list cplx)) : list (list cplx) :=
  map (fun a => map (fun x => csub x (mean ranks)) a) ranks.

(** 124-147: total_size; the size on this rank times the number of ranks. *)
Definition total_size (n_nodes : nat) (a : list cplx) : nat := length a * n_nodes.

(** 65-90: sum over the fibre and over the ranks (of real numbers, used by var). *)
Definition sum_real (ranks : list (list Qc)) : Qc := qsum (map qsum ranks).

(** 92-121: var on the rank holding [a]. *)
Definition var (ddof : nat) (ranks : list (list cplx)) (a : list cplx) : Qc :=
  let m := mean ranks in
  let ssq := map (map (fun x => cabs2 (csub x m))) ranks in
  sum_real ssq / (nQc (total_size (length ranks) a) - nQc ddof).
