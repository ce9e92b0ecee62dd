(** * What the numpy Jastrow machine is expected to compute *)
From Coq Require Import List Arith ZArith Bool Reals.
From Verif Require Import Base Rings ARNN_Model ToArray_Model Estim_Model Group_Spec Ansatz_Model LegRbm_Model LegRbm_Spec LegJas_Model.
Import ListNotations.
Open Scope R_scope.
Open Scope nat_scope.

(** Sum over i < j < n. *)
Definition pair_sum (n : nat) (f : nat -> nat -> cpx) : cpx :=
  fsum cC n (fun i => fsum cC n (fun j => if i <? j then f i j else (0, 0)%R)).
(** sum_{i<j} s_i J_ij s_j + sum_i a_i s_i *)
Definition jastrow_log (n : nat) (J : nat -> nat -> cpx) (a : nat -> cpx) (s : nat -> cpx) : cpx :=
  radd cC (pair_sum n (fun i j => rmul cC (rmul cC (s i) (J i j)) (s j))) (fsum cC n (fun i => rmul cC (a i) (s i))).
(** the formula of the documentation: sum_{ij} s_i J_ij s_j + ... over all i and j *)
Definition jastrow_doc (n : nat) (J : nat -> nat -> cpx) (a : nat -> cpx) (s : nat -> cpx) : cpx :=
  radd cC (fsum cC n (fun i => fsum cC n (fun j => rmul cC (rmul cC (s i) (J i j)) (s j)))) (fsum cC n (fun i => rmul cC (a i) (s i))).

(** Position of the pair i < j when the pairs are written row by row. *)
Definition pair_rank (n i j : nat) : nat := i * (2 * n - i - 1) / 2 + (j - i - 1).

(** Two pairs of sites are related by a symmetry. *)
Definition related (rows : list (list nat)) (i j u v : nat) : Prop :=
  exists g, In g rows /\ (nth i g 0 = u /\ nth j g 0 = v \/ nth i g 0 = v /\ nth j g 0 = u).
(** [c] numbers the classes of pairs of different sites below [n] by 0, ..., k-1. *)
Definition numbers_classes (n : nat) (rows : list (list nat)) (k : nat) (c : table) : Prop :=
  (forall i j, i < n -> j < n -> c i j = c j i) /\
  (forall i j u v, i < n -> j < n -> i <> j -> u < n -> v < n -> u <> v -> (c i j = c u v <-> related rows i j u v)) /\
  (forall i j, i < n -> j < n -> i <> j -> c i j < k) /\
  (forall q, q < k -> exists i j, i < j < n /\ c i j = q).

(** Parameters: the visible bias, if there is one, then the two-body parameters. *)
Definition par (p : list cpx) (i : nat) : cpx := nth i p (0, 0)%R.
Definition bias_of (vis : bool) (p : list cpx) (i : nat) : cpx := if vis then par p i else (0, 0)%R.
Definition shift (vis : bool) (n : nat) : nat := if vis then n else 0.

(** The vector of amplitudes. *)
Definition amps (logs : list cpx) : list cpx := map cexp logs.
Definition norm2 (l : list cpx) : R := rsum (map cnorm2 l).
Definition modulus (z : cpx) : R := sqrt (cnorm2 z).

(** A batch of configurations of n sites, with entries the machine can hold. *)
Definition rows_ok (n : nat) (d : ptype) (x : list (list cpx)) := Forall (fun s => length s = n /\ Forall (holds d) s) x.
