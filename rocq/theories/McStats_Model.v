(** * Statistics of Monte Carlo data (netket/stats/mc_stats.py 112-254)

    Numbers are complex with rational parts; the square roots of lines 211, 220 and 247 are
    not taken: [s_error2] and [s_rhat2] are their arguments.  The data of a rank is a
    matrix, the list of its rows (chains); a vector is a matrix with one row (lines 162-164),
    more than two axes raise (lines 166-167) and are not modelled.  All ranks hold matrices
    of the same shape with at least one entry. *)
From Coq Require Import List ZArith QArith Qcanon Arith.
From Verif Require Import MpiStats_Model.
Import ListNotations.
Open Scope Qc_scope.

(** floating point results that may not be numbers *)
Inductive fl := Fin (q : Qc) | NaN | PInf | MInf.

Definition qc_lt (a b : Qc) : bool := match a ?= b with Lt => true | _ => false end.
(** a / b *)
Definition fdiv (a b : Qc) : fl :=
  if Qc_eq_dec b 0 then (if Qc_eq_dec a 0 then NaN else if qc_lt a 0 then MInf else PInf)
  else Fin (a / b).
(** x < q; comparisons with nan are false *)
Definition flt (x : fl) (q : Qc) : bool :=
  match x with Fin p => qc_lt p q | MInf => true | _ => false end.
(** jnp.clip(x, 0) *)
Definition clip0 (x : fl) : fl :=
  match x with Fin p => Fin (if qc_lt p 0 then 0 else p) | MInf => Fin 0 | y => y end.
Definition faff (f : Qc -> Qc) (x : fl) : fl := match x with Fin q => Fin (f q) | y => y end.

Record stats := mkStats { s_mean : cplx; s_error2 : fl; s_var : Qc; s_tau : fl; s_rhat2 : fl }.

(** lines 112-117: data[:, 0 : n_blocks * l].reshape((-1, l)).mean(axis=1) *)
Definition get_blocks (l : nat) (m : list (list cplx)) : list cplx :=
  let chain_length := length (hd [] m) in
  let n_blocks := (chain_length / l)%nat in
  let xs := concat (map (firstn (n_blocks * l)) m) in
  map (fun i => local_mean (firstn l (skipn (i * l) xs))) (seq 0 (length xs / l)).

(** lines 161-254, on the rank holding [mine]; [bs] is batch_size *)
Definition statistics (bs : nat) (ranks : list (list (list cplx))) (mine : list (list cplx)) : stats :=
  let L := length (hd [] mine) in
  let mean_ := mean (map (@concat cplx) ranks) in
  let variance := var 0 (map (@concat cplx) ranks) (concat mine) in
  let ts := total_size (length ranks) (concat mine) in
  let b_means := map local_mean in
  let batch_var := var 0 (map b_means ranks) (b_means mine) in
  let n_batches := total_size (length ranks) (b_means mine) in
  let l_block := Nat.max 1 (L / bs) in
  let block_var := var 0 (map (get_blocks l_block) ranks) (get_blocks l_block mine) in
  let n_blocks := total_size (length ranks) (get_blocks l_block mine) in
  let tau v n := faff (fun x => (x - 1) / nQc 2) (fdiv (nQc ts / nQc n * v) variance) in
  let tau_batch := tau batch_var n_batches in
  let tau_block := tau block_var n_blocks in
  let batch_good := flt tau_batch (nQc (6 * L)) && (bs <=? n_batches)%nat in
  let block_good := flt tau_block (nQc (6 * l_block)) && (bs <=? n_blocks)%nat in
  let et := if batch_good then (Fin (batch_var / nQc n_batches), clip0 tau_batch)
            else if block_good then (Fin (block_var / nQc n_blocks), clip0 tau_block)
            else (NaN, NaN) in
  let rhat2 := if (1 <? n_batches)%nat
               then faff (fun x => (nQc L - 1) / nQc L + x) (fdiv batch_var variance)
               else NaN in
  mkStats mean_ (fst et) variance (snd et) rhat2.
