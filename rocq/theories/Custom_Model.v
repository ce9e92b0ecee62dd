(** * Metropolis moves given by an operator

    netket/sampler/rules/custom_numpy.py:15-138 (CustomRuleNumpy): the moves are the terms
    of a LocalOperator, each a matrix that is meant to be doubly stochastic and symmetric.
    A step draws one term per chain and then one of the configurations connected by that
    term.

    Simplifications: matrix elements are exact Gaussian rationals, weights and random
    numbers exact rationals (the rounding of [weight_list / weight_list.sum()] and of the
    cumulative sums is not modelled); the random numbers are given, one list for the terms
    and one for the configurations; only LocalOperator is modelled, so the [isinstance]
    test of __post_init__ always passes; the preallocated buffers of the rule and sampler
    states are returned values here.  A read past the end of a numba array is [Err Fault]. *)
From Coq Require Import ZArith List Bool QArith Qcanon.
From Verif Require Import Base Scalar LocalOp_Model.
Import ListNotations.
Open Scope nat_scope.
Open Scope list_scope.

Notation GLop := (lop gqS).

(** sum of the entries of a row; column [j] of the matrix *)
Definition gsum (l : list GQ) : GQ := fold_right gq_add gq0 l.
Definition column (m : list (list GQ)) (j : nat) : list GQ := map (fun r => nth j r gq0) m.
Definition ncolumns (m : list (list GQ)) : nat := match m with [] => 0 | r :: _ => length r end.

(** [z >= 0] for numpy complex numbers: the lexicographic order *)
Definition lex_nonneg (z : GQ) : bool :=
  qc_ltb 0%Qc (fst z) || (qc_leb 0%Qc (fst z) && qc_leb 0%Qc (snd z)).

(** _check_operators for one matrix (lines 132-138); [op.min() >= 0] says that every entry is
    [>= 0] because numpy's order on complex numbers is total *)
Definition check_operator (m : list (list GQ)) : bool :=
  forallb (forallb (fun z => qc_ltb (snd z) (Q2Qc (1 # 10 ^ 10)))) m &&
  forallb (forallb lex_nonneg) m &&
  forallb (fun j => gq_close (gsum (column m j)) gq1) (seq 0 (ncolumns m)) &&
  forallb (fun r => gq_close (gsum r) gq1) m &&
  forallb (fun i => forallb (fun j => gq_close (nth j (nth i m []) gq0) (nth i (nth j m []) gq0))
     (seq 0 (ncolumns m))) (seq 0 (length m)).

Definition qsum (l : list Qc) : Qc := fold_right Qcplus 0%Qc l.

(** ndarray.min() < 0; the minimum of an empty array is a ValueError as well *)
Definition min_negative (w : list Qc) : bool := existsb (fun x => qc_ltb x 0%Qc) w.

(** CustomRuleNumpy.__post_init__ (lines 42-64): the normalised weights.  [None] is the array
    of NaNs that 0/0 gives. *)
Definition custom_new (o : GLop) (weight_list : option (list Qc)) : res (option (list Qc)) :=
  if negb (forallb check_operator (lo_ops gqS o)) then Err AssertionError
  else
    let? w :=
      match weight_list with
      | Some w =>
          if negb (Nat.eqb (length w) (length (lo_ops gqS o))) then Err ValueError
          else if Nat.eqb (length w) 0 then Err ValueError
          else if min_negative w then Err ValueError
          else Ok w
      | None => Ok (repeat 1%Qc (length (lo_ops gqS o)))
      end in
    if Nat.eqb (length w) 0 then Ok (Some [])
    else if qc_leb (qsum w) 0%Qc && qc_leb 0%Qc (qsum w) then Ok None
    else Ok (Some (map (fun x => (x / qsum w)%Qc) w)).

(** init_state (lines 66-71): the cumulative weights *)
Fixpoint qcumsum (acc : Qc) (l : list Qc) : list Qc :=
  match l with [] => [] | x :: l' => (acc + x)%Qc :: qcumsum (acc + x)%Qc l' end.
Definition custom_init (w : option (list Qc)) : option (list Qc) := option_map (qcumsum 0%Qc) w.

(** np.searchsorted(cumulative, p), side left: the first index whose entry is not below [p] *)
Fixpoint first_not_below (c : list Qc) (p : Qc) : nat :=
  match c with
  | [] => 0
  | x :: c' => if qc_ltb x p then S (first_not_below c' p) else 0
  end.

(** _pick_random_and_init (lines 107-111); no entry of an array of NaNs is below [p] *)
Definition pick_operator (c : option (list Qc)) (p : Qc) : nat :=
  match c with Some c => first_not_below c p | None => 0 end.

(** the loop of _choose_and_return (lines 117-124) for one chain, from an entry of the
    concatenated arrays on: [acc] is the cumulative probability before the entry *)
Fixpoint walk (acc p : Qc) (entries : list (list Z * GQ)) : res (list Z) :=
  match entries with
  | [] => Err Fault
  | (y, mel) :: rest =>
      let c := (acc + fst mel)%Qc in
      if qc_ltb c p then walk c p rest else Ok y
  end.

(** _choose_and_return (lines 116-129): chain [i] starts at the end of the section of chain
    [i-1] *)
Fixpoint choose (entries : list (list Z * GQ)) (low : nat) (sections : list nat) (v : list Qc)
  : res (list (list Z)) :=
  match v, sections with
  | [], _ => Ok []
  | p :: v', s :: sections' =>
      let? y := walk 0%Qc p (skipn low entries) in
      let? ys := choose entries s sections' v' in
      Ok (y :: ys)
  | _ :: _, [] => Err Fault
  end.

(** transition (lines 74-104): the proposals and the log-probability corrections.
    [us], [vs] are the uniform numbers of the two draws. *)
Definition custom_transition (hs : list (list Z)) (o : GLop) (cumulative : option (list Qc))
  (us vs : list Qc) (xs : list (list Z)) : res (list (list Z) * list Qc) :=
  let? rows := sequence (map (fun p => get_conn_filtered gqS hs o (fst p) (snd p))
                             (combine xs (map (pick_operator cumulative) us))) in
  let sections := LocalOp_Model.cumsum 0 (map (@length _) rows) in
  let? ys := choose (concat rows) 0 sections vs in
  Ok (ys, map (fun _ => 0%Qc) xs).
