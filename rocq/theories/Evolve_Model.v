(** * Exact time propagation (netket/_exact_dynamics.py)

    States are vectors of complex numbers, indexed by the number of the basis state;
    operators are matrices of dimension [N].  scipy's OdeSolver is modelled by its public
    attributes and its [step] method; the method that performs one integration step is an
    oracle. *)
From Coq Require Import String List Arith Reals ZArith.
From Verif Require Import Base Rings ARNN_Model ToArray_Model Estim_Model.
Import ListNotations.
Open Scope string_scope.
Open Scope list_scope.
Open Scope R_scope.

Notation vec := (nat -> cpx).
Notation mat := (nat -> nat -> cpx).

(** ham.dot(state), numpy.vdot (conjugates its first argument) *)
Definition dot (N : nat) (A : mat) (v : vec) : vec := fun i => fsum cC N (fun j => rmul cC (A i j) (v j)).
Definition vdot (N : nat) (a b : vec) : cpx := fsum cC N (fun i => rmul cC (rconj cC (a i)) (b i)).

(** 33-39: _make_op; [None] is Python's None.  [to_linear_op] is not a method of operators. *)
Definition make_op (op : mat) (matrix_type : string) : res (option mat) :=
  if (matrix_type =? "sparse")%string then Ok (Some op)
  else if (matrix_type =? "dense")%string then Ok (Some op)
  else if (matrix_type =? "direct")%string then Err AttributeError
  else Ok None.

(** 42-60: _make_rhs *)
Definition real_rhs (N : nat) (H : mat) (psi : vec) : vec := fun i => rmul cC (0, -1) (dot N H psi i).
Definition imaginary_rhs (N : nat) (H : mat) (psi : vec) : vec := fun i =>
  let v0 := dot N H psi in
  let mean := vdot N psi v0 in
  radd cC (ropp cC (v0 i)) (rmul cC mean (psi i)).
Definition make_rhs (N : nat) (H : mat) (propagation_type : string) : option (vec -> vec) :=
  if (propagation_type =? "real")%string then Some (real_rhs N H)
  else if (propagation_type =? "imaginary")%string then Some (imaginary_rhs N H)
  else None.

(** 159-169: _estimate_stats, mean and variance *)
Definition estimate (N : nat) (O : mat) (psi : vec) : cpx * R :=
  let v0 := dot N O psi in
  let mean := vdot N psi v0 in
  let variance := rsub cC (vdot N psi (dot N O v0)) (rmul cC mean mean) in
  (mean, fst variance).

(** scipy.integrate check_arguments: a real initial state is integrated in real arithmetic;
    the right-hand side is converted to the type of the state, which drops imaginary
    parts. *)
Definition cast (is_complex : bool) (v : vec) : vec := fun i => if is_complex then v i else (fst (v i), 0).
Definition solver_rhs (is_complex : bool) (rhs : vec -> vec) (y : vec) : vec := cast is_complex (rhs y).

Inductive status := Running | Finished | Failed.
(** [s_calls] counts the steps made, so that the oracle may depend on the history. *)
Record solver := Solver { s_t : R; s_y : vec; s_bound : option R; s_status : status; s_calls : nat }.

Record driver := Driver {
  d_state : vec; d_dt : R; d_t0 : R; d_t : R;
  d_step : option Z;          (* the attribute _step, absent until reset is called *)
  d_new_t0 : option R;        (* the attribute t0 *)
  d_solver : solver
}.

(** 130-157: __init__.  RK45.__init__ evaluates the right-hand side once. *)
Definition create (N : nat) (H : mat) (initial : vec) (dt t0 : R) (propagation_type matrix_type : string) : res driver :=
  let? h := make_op H matrix_type in
  match h, make_rhs N H propagation_type with
  | _, None => Err TypeError
  | None, Some _ => Err AttributeError
  | Some _, Some _ => Ok (Driver initial dt t0 t0 None None (Solver t0 initial None Running 0))
  end.

Section Advance.
  (** RK45._step_impl: number of the call, t, y and t_bound; [None] is a failure. *)
  Variable impl : nat -> R -> vec -> R -> option (R * vec).

  (** scipy OdeSolver.step (direction +1; the dimension is not 0) *)
  Definition solver_step (s : solver) : solver :=
    match s_bound s with
    | None => s
    | Some b =>
        if Req_EM_T (s_t s) b then Solver b (s_y s) (Some b) Finished (s_calls s)
        else match impl (s_calls s) (s_t s) (s_y s) b with
             | None => Solver (s_t s) (s_y s) (Some b) Failed (S (s_calls s))
             | Some (t', y') => Solver t' y' (Some b) (if Rle_dec b t' then Finished else Running) (S (s_calls s))
             end
    end.

  (** 205-206; [None] when the loop does not end within [fuel] steps *)
  Fixpoint solver_loop (fuel : nat) (s : solver) : option solver :=
    match s_status s with
    | Running => match fuel with O => None | S f => solver_loop f (solver_step s) end
    | _ => Some s
    end.

  (** 192-211: advance.  [raise ...] raises the Ellipsis object, hence a TypeError. *)
  Definition advance (fuel : nat) (n : nat) (d : driver) : option (res unit * driver) :=
    let t_end := d_t d + INR n * d_dt d in
    let s := Solver (d_t d) (s_y (d_solver d)) (Some t_end) Running (s_calls (d_solver d)) in
    match solver_loop fuel s with
    | None => None
    | Some s' =>
        match s_status s' with
        | Failed => Some (Err TypeError, Driver (d_state d) (d_dt d) (d_t0 d) (d_t d) (d_step d) (d_new_t0 d) s')
        | _ => Some (Ok tt, Driver (s_y s') (d_dt d) (d_t0 d) (s_t s') (d_step d) (d_new_t0 d) s')
        end
    end.

  (** 213-228: iter; the states seen by the caller at each yield, and the driver at the end *)
  Fixpoint iter (fuel : nat) (k : nat) (i : nat) (step : nat) (d : driver) : option (list (nat * R * vec) * res driver) :=
    match k with
    | O => Some ([], Ok d)
    | S k =>
        match advance fuel step d with
        | None => None
        | Some (Err e, _) => Some ([(i, d_t d, d_state d)], Err e)
        | Some (Ok _, d') =>
            match iter fuel k (S i) step d' with
            | None => None
            | Some (l, r) => Some ((i, d_t d, d_state d) :: l, r)
            end
        end
    end.
End Advance.

(** A sequence of calls of [advance], up to the first exception. *)
Fixpoint advances (impl : nat -> R -> vec -> R -> option (R * vec)) (fuel : nat) (ns : list nat) (d : driver)
  : option (res driver) :=
  match ns with
  | [] => Some (Ok d)
  | n :: ns => match advance impl fuel n d with
               | None => None
               | Some (Err e, _) => Some (Err e)
               | Some (Ok _, d') => advances impl fuel ns d'
               end
  end.

(** [driver.state = v] by the caller *)
Definition set_state (v : vec) (d : driver) : driver :=
  Driver v (d_dt d) (d_t0 d) (d_t d) (d_step d) (d_new_t0 d) (d_solver d).
(** 230-235: reset *)
Definition reset (d : driver) : driver :=
  Driver (d_state d) (d_dt d) (d_t0 d) (d_t d) (Some 0%Z) (Some (d_t d)) (d_solver d).
(** 188-190: step_count *)
Definition step_count (d : driver) : res Z := match d_step d with Some k => Ok k | None => Err AttributeError end.

(** 237-296: run up to the first logged step.  The second positional argument of JsonLog is
    the mode (logging/json_log.py 73-117); [_loss_stats] is never set. *)
Inductive pyarg := AInt (z : Z) | AStr (s : string).
Definition jsonlog_mode (file_exists : bool) (mode : pyarg) : res unit :=
  match mode with
  | AInt _ => Err ValueError
  | AStr m =>
      let m := if (m =? "w")%string then "write" else if (m =? "a")%string then "append"
               else if (m =? "x")%string then "fail" else m in
      if negb ((m =? "write")%string || (m =? "append")%string || (m =? "fail")%string) then Err ValueError
      else if (m =? "append")%string then Err ValueError
      else if (file_exists && (m =? "fail")%string)%bool then Err ValueError
      else Ok tt
  end.
Definition run (file_exists : bool) (n_iter : nat) (save_params_every : pyarg) : res unit :=
  let? _ := jsonlog_mode file_exists save_params_every in
  match n_iter with O => Ok tt | S _ => Err AttributeError end.
