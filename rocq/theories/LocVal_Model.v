(** * Local values of an operator and their derivatives, for machines which are not jax
    functions (netket/operator/_local_values.py 25-127, _der_local_values.py 23-170)

    Configurations are numbered; [conn s] are the connected states of [s] and their matrix
    elements in the order of get_conn_flattened (see [LocalOp_Model]).  The machine's
    log_val and der_log act on every row of a batch alone.  Entries of an array which was
    allocated by np.empty and never written are [junk].  A kernel compiled by numba does
    not check indices: reading or writing outside an array is [Err Fault]. *)
From Coq Require Import List Arith ZArith Reals.
From Verif Require Import Base Rings ARNN_Model ToArray_Model Estim_Model.
Import ListNotations.
Open Scope nat_scope.

(** The array of samples: number of axes, number of columns, rows. *)
Record batch := Batch { ndim : nat; cols : nat; rows : list nat }.

Definition slice {A} (lo hi : nat) (l : list A) : list A := firstn (hi - lo) (skipn lo l).

(** get_conn_flattened: connected states, matrix elements; [sections] are the running
    totals of the numbers of connected states *)
Fixpoint running (low : nat) (ns : list nat) : list nat :=
  match ns with [] => [] | n :: ns => (low + n) :: running (low + n) ns end.
Definition conn_flattened (conn : nat -> list (nat * cpx)) (v : list nat) : list nat * list cpx * list nat :=
  let all := flat_map conn v in
  (map fst all, map snd all, running 0 (map (fun s => length (conn s)) v)).

(** the loop over the sections shared by all kernels: low_range = 0; for i, s in
    enumerate(sections): ...; low_range = s *)
Fixpoint over_sections {B} (body : nat -> nat -> nat -> B) (i low_range : nat) (sections : list nat) : list B :=
  match sections with
  | [] => []
  | s :: rest => body i low_range s :: over_sections body (S i) s rest
  end.

(** [out] given or allocated; the kernel writes one entry for every section *)
Definition write_out {B} (out : option (list B)) (vals : list B) : res (list B) :=
  match out with
  | None => Ok vals
  | Some o => if length o <? length vals then Err Fault else Ok (vals ++ skipn (length vals) o)
  end.
(** log_vals[i] and der_log[i, :] are read for every section *)
Definition long_enough {B} (l : list B) (n : nat) : res unit := if length l <? n then Err Fault else Ok tt.

(** _local_values.py 28-30: mels * exp(log_val_primes - log_vals[i]) of one section *)
Definition weights (log_vals log_val_p mels : list cpx) (i lo hi : nat) : list cpx :=
  map (fun ml => rmul cC (fst ml) (cexp (rsub cC (snd ml) (nth i log_vals (r0 cC)))))
      (combine (slice lo hi mels) (slice lo hi log_val_p)).

(** _local_values.py 25-32 *)
Definition local_values_kernel (log_vals log_val_p mels : list cpx) (sections : list nat) (out : option (list cpx))
  : res (list cpx) :=
  let? _ := long_enough log_vals (length sections) in
  write_out out (over_sections (fun i lo hi => lsum cC (weights log_vals log_val_p mels i lo hi)) 0 0 sections).

(** 35-44 *)
Definition local_values_impl conn (log_val : nat -> cpx) (v : list nat) log_vals out : res (list cpx) :=
  let '(v_primes, mels, sections) := conn_flattened conn v in
  local_values_kernel log_vals (map log_val v_primes) mels sections out.

(** 47-55: vold[low_range:s] = v[i]; [vold] has sections[-1] rows *)
Definition op_op_unpack (v sections : list nat) : list nat :=
  concat (over_sections (fun i lo hi => repeat (nth i v 0) (hi - lo)) 0 0 sections).

(** 58-72; sections[-1] of an empty array raises *)
Definition local_values_op_op_impl conn (log_val2 : nat -> nat -> cpx) (v : list nat) log_vals out : res (list cpx) :=
  let '(v_primes, mels, sections) := conn_flattened conn v in
  match sections with
  | [] => Err IndexError
  | _ => local_values_kernel log_vals
           (map (fun xy => log_val2 (fst xy) (snd xy)) (combine v_primes (op_op_unpack v sections))) mels sections out
  end.

(** A wave function, or a density matrix with the logarithm of its entries; the latter
    evaluated at a row of the doubled space when no second argument is given. *)
Inductive machine := Pure (log_val : nat -> cpx) | Density (log_val1 : nat -> cpx) (log_val2 : nat -> nat -> cpx).

(** 75-127; [liouvillian] : the operator is a LocalLiouvillian; [size] is op.hilbert.size *)
Definition local_values (liouvillian : bool) (size : nat) conn (m : machine) (v : batch)
    (log_vals out : option (list cpx)) : res (list cpx) :=
  if negb (ndim v =? 2) then Err RuntimeError
  else
    let given default := match log_vals with Some l => l | None => default end in
    let check {A} (r : res A) := if cols v =? size then r else Err AssertionError in
    match m with
    | Pure log_val => check (local_values_impl conn log_val (rows v) (given (map log_val (rows v))) out)
    | Density log_val1 log_val2 =>
        if liouvillian
        then check (local_values_impl conn log_val1 (rows v) (given (map log_val1 (rows v))) out)
        else check (local_values_op_op_impl conn log_val2 (rows v) (given (map (fun s => log_val2 s s) (rows v))) out)
    end.

(** ** Derivatives *)

(** One row for every state, one column for every parameter. *)
Notation row := (list cpx).
Definition col (p : nat) (r : row) : cpx := nth p r (r0 cC).

(** range(0, n, step), step > 0; [fuel] is n *)
Fixpoint range_from (fuel s n step : nat) : list nat :=
  match fuel with
  | O => []
  | S fuel => if s <? n then s :: range_from fuel (s + step) n step else []
  end.

(** l[s:end] = vals *)
Definition assign {B} (l : list B) (s : nat) (vals : list B) : list B := firstn s l ++ vals ++ skipn (s + length vals) l.

(** _der_local_values.py 46-51 and 78-83: der_log of the connected states in batches *)
Definition der_log_batched (junk : nat -> row) (der_log : nat -> row) (v_primes : list nat) (batch_size : Z)
  : res (list row) :=
  let n_primes := length v_primes in
  let empty := map junk (seq 0 n_primes) in
  if (batch_size =? 0)%Z then Err ValueError
  else if (batch_size <? 0)%Z then Ok empty
  else
    let b := Z.to_nat batch_size in
    Ok (fold_left (fun acc s => assign acc s (map der_log (slice s (Nat.min (s + b) n_primes) v_primes)))
          (range_from n_primes 0 n_primes b) empty).

(** 23-35 *)
Definition der_kernel (n_par : nat) (log_vals log_val_p mels : list cpx) (der_log der_log_p : list row)
    (sections : list nat) (out : option (list row)) : res (list row) :=
  let? _ := long_enough log_vals (length sections) in
  let? _ := long_enough der_log (length sections) in
  write_out out (over_sections (fun i lo hi =>
     map (fun p => lsum cC (map (fun wd => rmul cC (fst wd) (rsub cC (col p (snd wd)) (col p (nth i der_log []))))
                     (combine (weights log_vals log_val_p mels i lo hi) (slice lo hi der_log_p)))) (seq 0 n_par))
     0 0 sections).
(** 58-70 *)
Definition der_notcentered_kernel (n_par : nat) (log_vals log_val_p mels : list cpx) (der_log_p : list row)
    (sections : list nat) (out : option (list row)) : res (list row) :=
  let? _ := long_enough log_vals (length sections) in
  write_out out (over_sections (fun i lo hi =>
     map (fun p => lsum cC (map (fun wd => rmul cC (fst wd) (col p (snd wd)))
                     (combine (weights log_vals log_val_p mels i lo hi) (slice lo hi der_log_p)))) (seq 0 n_par))
     0 0 sections).

(** The value of center_derivative: the two booleans, or another object with its truth
    value; [center_derivative is True] holds of the first only. *)
Inductive flag := FTrue | FFalse | FOther (truthy : bool).
Definition is_true (f : flag) : bool := match f with FTrue => true | _ => false end.

(** 88-170, machines which are not jax functions; n_par is machine.n_par *)
Definition der_local_values (junk : nat -> row) (size n_par : nat) conn (log_val : nat -> cpx) (der_log : nat -> row)
    (v : batch) (log_vals : option (list cpx)) (der_log_vals out : option (list row)) (center_derivative : flag)
    (batch_size : Z) : res (list row) :=
  if negb (ndim v =? 2) then Err RuntimeError
  else if negb (cols v =? size) then Err AssertionError
  else
    let log_vals := match log_vals with Some l => l | None => map log_val (rows v) end in
    let '(v_primes, mels, sections) := conn_flattened conn (rows v) in
    let log_val_primes := map log_val v_primes in
    if is_true center_derivative then
      let der_log_vals := match der_log_vals with Some d => d | None => map der_log (rows v) end in
      let? der_log_primes := der_log_batched junk der_log v_primes batch_size in
      der_kernel n_par log_vals log_val_primes mels der_log_vals der_log_primes sections out
    else
      let? der_log_primes := der_log_batched junk der_log v_primes batch_size in
      der_notcentered_kernel n_par log_vals log_val_primes mels der_log_primes sections out.
