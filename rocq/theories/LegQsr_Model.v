(** * Quantum state reconstruction (netket/legacy/_qsr.py)

    Complex numbers over the real numbers of the standard library, exact arithmetic.
    Configurations are the numbers of the basis states; a rotation is its [get_conn], the
    list of connected configurations with their matrix elements.  A machine is its log_val
    (finite everywhere), its der_log, and whether its vector_jacobian_prod writes into the
    array it is given: that of abstract_machine.py 38-77 does (two axes, np.dot with out), that
    of machine/jax.py 168-203 returns a new array and leaves [out] alone.  The contents of
    arrays made with np.empty are inputs of the model.  An array with a NaN is [None].  A
    collective operation is a function of what all ranks contribute. *)
From Coq Require Import List Arith ZArith Bool Reals.
From Verif Require Import Base Rings ARNN_Model ToArray_Model Estim_Model.
Import ListNotations.
Open Scope R_scope.
Open Scope nat_scope.

Definition conn_of := nat -> list (nat * cpx).
Record qmach := QMach { q_npar : nat; q_log : nat -> cpx; q_der : nat -> list cpx; q_writes : bool }.
Definition entry (l : list cpx) (k : nat) : cpx := nth k l (0, 0)%R.
Definition row := option (list cpx).

(** ** 40-94, 106-163: sizes *)
Inductive qerr := QErr (e : exn) | QNameError.
Definition zceil (a b : Z) : Z := (- (- a / b))%Z.
Record qsize := QSize { z_node : Z; z_data : Z; z_discard : Z }.
(** 110-119: chains are rounded up to the batch, then to the ranks *)
Definition per_node (n_samples batch nodes : Z) : Z := zceil (zceil n_samples batch) nodes.
(** 68-94: the setters in the order of the constructor; the message of the error for
    [n_samples_data] uses a name that does not exist in the setter (138-141) *)
Definition sizes (n_samples n_data : Z) (n_discard : option Z) (batch nodes : Z) : qsize + qerr :=
  if (n_samples <=? 0)%Z then inr (QErr ValueError)
  else match n_discard with
  | Some d => if (d <? 0)%Z then inr (QErr ValueError)
              else if (n_data <=? 0)%Z then inr QNameError
              else inl (QSize (per_node n_samples batch nodes) (zceil n_data nodes) d)
  | None => if (n_data <=? 0)%Z then inr QNameError
            else inl (QSize (per_node n_samples batch nodes) (zceil n_data nodes)
                        (per_node n_samples batch nodes * batch / 10)%Z)
  end.
(** 74-75, 87-94: the training set; [width] is hilbert.size, every row has its own length *)
Definition training (width : nat) (rows : list (list Z)) (bases : list Z) : res unit :=
  if negb (forallb (fun r => length r =? width) rows) then Err AssertionError
  else if negb (length bases =? length rows) then Err AssertionError else Ok tt.

(** ** vector_jacobian_prod with conjugate=True: jacobian^dagger vec *)
Definition vjp (m : qmach) (xs : list nat) (vec : list cpx) (out : row) : row :=
  if q_writes m then
    Some (map (fun k => lsum cC (map (fun p => rmul cC (rconj cC (entry (q_der m (fst p)) k)) (snd p)) (combine xs vec)))
      (seq 0 (q_npar m)))
  else out.

(** ** 249-256: _rotated_grad_kernel; a division of an array by zero makes NaN *)
Definition max_real (l : list cpx) : res R :=
  match l with
  | [] => Err ValueError
  | z :: l => Ok (fold_left (fun a z => Rmax a (fst z)) l (fst z))
  end.
Definition cquot (a b : cpx) : cpx := cdiv a b.
Definition czero (z : cpx) : bool := if Req_EM_T (fst z) 0 then if Req_EM_T (snd z) 0 then true else false else false.
Definition kernel (logs mels : list cpx) : res row :=
  let? mx := max_real logs in
  let vec := map (fun p => rconj cC (rmul cC (fst p) (cexp (rsub cC (snd p) (mx, 0%R))))) (combine mels logs) in
  let s := lsum cC vec in
  Ok (if czero s then None else Some (map (fun v => cquot v s) vec)).
(** 240-247: _compute_rotated_grad; the result is what [out] holds afterwards *)
Definition rotated_grad (m : qmach) (rots : list conn_of) (x b : nat) (out : row) : res row :=
  match nth_error rots b with
  | None => Err IndexError
  | Some conn =>
    let xs := map fst (conn x) in
    let? vec := kernel (map (q_log m) xs) (map snd (conn x)) in
    Ok match vec with
       | Some vec => vjp m xs vec out
       | None => if q_writes m then None else out
       end
  end.

(** ** means over the first axis and over the ranks (legacy/stats/mpi_stats.py 34-59) *)
Definition mean_rows (n : nat) (rows : list (list cpx)) : list cpx :=
  map (fun k => rscal (/ INR (length rows)) (lsum cC (map (fun r => entry r k) rows))) (seq 0 n).
Fixpoint all_some {A} (l : list (option A)) : option (list A) :=
  match l with
  | [] => Some []
  | Some a :: l => option_map (cons a) (all_some l)
  | None :: _ => None
  end.
Definition mean_opt (n : nat) (rows : list row) : row := option_map (mean_rows n) (all_some rows).

(** What one rank brings to a step: the samples of the model, [batch] configurations for each
    of the sweeps (183-184), the positions drawn in the training set (187-189), and what the
    arrays _grads and _data_grads happen to hold. *)
Record rank_in := RankIn { i_samples : list (list nat); i_ind : list nat; i_grads : list row; i_data_grads : list row }.

(** 191-192: fancy indexing *)
Definition take_at (l : list nat) (ind : list nat) : res (list nat) :=
  sequence (map (fun i => match nth_error l i with Some v => Ok v | None => Err IndexError end) ind).
(** 203-209, 228-234: the positive phase of one rank *)
Definition positive (m : qmach) (rots : list conn_of) (ts bs : list nat) (r : rank_in) : res row :=
  let? xs := take_at ts (i_ind r) in
  let? bx := take_at bs (i_ind r) in
  let? rows := sequence (map (fun q => rotated_grad m rots (fst (fst q)) (snd (fst q)) (snd q))
      (combine (combine xs bx) (i_data_grads r))) in
  Ok (mean_opt (q_npar m) rows).
(** 219-226: the negative phase of one rank, without SR *)
Definition negative (m : qmach) (batch : nat) (r : rank_in) : row :=
  let ones := repeat (/ INR batch, 0)%R batch in
  mean_opt (q_npar m) (map (fun p => vjp m (fst p) ones (snd p)) (combine (i_samples r) (i_grads r))).
(** 198-201: with SR, from the jacobian; the conjugate is taken after the mean over ranks *)
Definition jacobian (m : qmach) (r : rank_in) : list (list cpx) := map (q_der m) (concat (i_samples r)).
(** 211, 236 *)
Definition difference (n : nat) (neg pos : row) : row :=
  match neg, pos with
  | Some a, Some b => Some (map (fun k => rscal 2 (rsub cC (entry a k) (entry b k))) (seq 0 n))
  | _, _ => None
  end.
(** 194-238: _forward_and_backward after the sampling; [sr] is compute_update, given the
    jacobians of all ranks and the gradient *)
Definition step (m : qmach) (rots : list conn_of) (ts bs : list nat) (batch : nat)
    (sr : option (list (list (list cpx)) -> row -> row)) (ranks : list rank_in) : res row :=
  let n := q_npar m in
  let? pos := sequence (map (positive m rots ts bs) ranks) in
  let pos := mean_opt n pos in
  match sr with
  | None => Ok (difference n (mean_opt n (map (negative m batch) ranks)) pos)
  | Some solve =>
    let neg := map (rconj cC) (mean_rows n (map (fun r => mean_rows n (jacobian m r)) ranks)) in
    Ok (solve (map (jacobian m) ranks) (difference n (Some neg) pos))
  end.

(** ** 294-324: nll; the logarithm of zero is minus infinity, so the result is [None],
    plus infinity, as soon as one sample has amplitude zero *)
Definition nll_term (m : qmach) (rots : list conn_of) (x b : nat) : res (option R) :=
  match nth_error rots b with
  | None => Err IndexError
  | Some conn =>
    let logs := map (fun c => q_log m (fst c)) (conn x) in
    let? mx := max_real logs in
    let psi := lsum cC (map (fun p => rmul cC (fst p) (cexp (rsub cC (snd p) (mx, 0%R)))) (combine (map snd (conn x)) logs)) in
    Ok (if czero psi then None else Some (ln (cnorm2 psi) + 2 * mx)%R)
  end.
Definition nll (m : qmach) (rots : list conn_of) (samples bases : list nat) (log_norm : R) : res (option R) :=
  let? terms := sequence (map (fun q => nll_term m rots (fst q) (snd q)) (combine samples bases)) in
  match samples with
  | [] => Err ZeroDivisionError
  | _ => Ok (option_map (fun l => (fold_left (fun a t => a - t) l 0 / INR (length samples) + log_norm)%R) (all_some terms))
  end.
