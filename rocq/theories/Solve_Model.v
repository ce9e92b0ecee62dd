(** * Solving linear systems with the quantum geometric tensor
    netket/optimizer/linear_operator.py, qgt/qgt_onthefly.py 155-166,
    qgt/qgt_jacobian_pytree.py 201-229, qgt/qgt_jacobian_dense.py 187-214,
    optimizer/solver/solvers.py, optimizer/preconditioner.py.

    A solver is an oracle which is given the linear map, the right-hand side and the
    optional initial guess; it may return anything.  Vectors are functions on the indices
    of their entries.  The right-hand side has the types of the parameters.  Sample sums,
    ranks and the Jacobians are those of QGT_Model.  The additional information returned
    by solvers is left out. *)
From Coq Require Import List Arith Bool Reals.
From Verif Require Import Base Rings ARNN_Model Estim_Model QGT_Model.
Import ListNotations.
Open Scope R_scope.

(** linear_operator.py 29-30 *)
Definition solver (V : Type) := (V -> V) -> V -> option V -> V.

Definition has_complex (ls : leaves) : bool := existsb (fun l => fst l) ls.

(** tree_to_real (jax/utils.py 234-266) *)
Definition split (v : nat -> cpx) : coord -> R := fun c => part (snd c) (v (fst c)).

(** qgt_jacobian_pytree.py 201-229, modes "real" and "complex".  The guess is not split:
    with complex leaves its structure differs from that of the right-hand side, for which
    tree_multimap and the jax solvers raise ValueError. *)
Definition solve_pytree (m : mode) (ls : leaves) (ranks : list (list sample)) (shift : R) (resc : bool)
    (sol : solver (coord -> R)) (y : nat -> cpx) (x0 : option (nat -> cpx)) : res (nat -> cpx) :=
  let o := oks_pytree m ranks in
  let s := scale_of rR coord sqrt o in
  let y := split y in
  if match x0 with Some _ => has_complex ls | None => false end then Err ValueError else
  if resc then
    let out := sol (mat_vec_pytree rR coord (real_leaves 0 ls) (fst (rescale rR coord sqrt Rdiv o)) shift)
                   (fun c => y c / s c) (option_map (fun x c => split x c * s c) x0) in
    Ok (reassemble ls (fun c => out c / s c))
  else
    Ok (reassemble ls (sol (mat_vec_pytree rR coord (real_leaves 0 ls) o shift) y (option_map split x0))).

(** qgt_jacobian_dense.py 187-214, modes "real" and "complex".  Columns and entries are
    matched by position.  The guess is ravelled but not split; with complex parameters
    the solver raises ValueError for its shape, or the product with the scale raises
    TypeError (for one single parameter: the reassembling of the complex result). *)
Definition solve_dense (m : mode) (ls : leaves) (ranks : list (list sample)) (shift : R) (resc : bool)
    (sol : solver (nat -> R)) (y : nat -> cpx) (x0 : option (nat -> cpx)) : res (nat -> cpx) :=
  let jc := reim_columns ls in
  let vc := vec_columns ls in
  if negb (length jc =? length vc)%nat then Err TypeError else
  let at_ (cols : list coord) (i : nat) := nth i cols (O, false) in
  let rows := map (map (fun (r : row rR coord) i => r (at_ jc i))) (oks_dense m ranks) in
  let s := scale_of rR nat sqrt rows in
  let y := fun i => split y (at_ vc i) in
  if match x0 with Some _ => has_complex ls | None => false end
  then Err (if resc then TypeError else ValueError) else
  let x0 := option_map (fun x i => split x (at_ vc i)) x0 in
  let n := length jc in
  let out :=
    if resc then
      let out := sol (mat_vec_dense rR nat (seq 0 n) (fst (rescale rR nat sqrt Rdiv rows)) shift)
                     (fun i => y i / s i) (option_map (fun x i => x i * s i) x0) in
      fun i => out i / s i
    else sol (mat_vec_dense rR nat (seq 0 n) rows shift) y x0 in
  Ok (reassemble ls (positions vc out 0)).

(** The same two in mode "holomorphic", without rescaling: nothing is split. *)
Definition solve_pytree_holo (ls : leaves) (ranks : list (list sample)) (shift : R)
    (sol : solver (nat -> cpx)) (y : nat -> cpx) (x0 : option (nat -> cpx)) : res (nat -> cpx) :=
  Ok (sol (mat_vec_pytree cC nat (holo_leaves ls) (oks_holo ls ranks) (shift, 0)) y x0).
Definition solve_dense_holo (ls : leaves) (ranks : list (list sample)) (shift : R)
    (sol : solver (nat -> cpx)) (y : nat -> cpx) (x0 : option (nat -> cpx)) : res (nat -> cpx) :=
  Ok (sol (mat_vec_dense cC nat (seq 0 (n_pars ls)) (oks_holo ls ranks) (shift, 0)) y x0).

(** qgt_onthefly.py 155-166: the guess defaults to zero. *)
Definition solve_onthefly (ls : leaves) (ranks : list (list sample)) (shift : R)
    (sol : solver (nat -> cpx)) (y : nat -> cpx) (x0 : option (nat -> cpx)) : res (nat -> cpx) :=
  let x0 := match x0 with None => fun _ => (0, 0) | Some x0 => x0 end in
  Ok (sol (matmul_onthefly ls ranks shift) (cast ls y) (Some x0)).

(** solvers.py 21-72 (svd, cholesky, LU, solve): the dense matrix of the operator and the
    right-hand side go to a routine for dense systems, the guess is dropped. *)
Definition direct {I T} (dense : I -> I -> T) (routine : (I -> I -> T) -> (I -> T) -> I -> T) : solver (I -> T) :=
  fun _ y _ => routine dense y.

(** ** preconditioner.py 38-76
    [solve s f x0]: lhs_constructor(s).solve(solver, f, x0=x0).  An exception leaves the
    object as it was but for _lhs, which is not read again. *)
Section Preconditioner.
  Context {VS V : Type}.
  Variable solve : VS -> V -> option V -> res V.
  Record prec := Prec { solver_restart : bool; x0 : option V }.
  Definition new_prec (restart : bool) : prec := Prec restart None.
  Definition prec_call (p : prec) (s : VS) (gradient : V) : res V * prec :=
    let guess := if solver_restart p then x0 p else None in
    match solve s gradient guess with
    | Err e => (Err e, p)
    | Ok x => (Ok x, Prec (solver_restart p) (Some x))
    end.
  Fixpoint prec_calls (p : prec) (calls : list (VS * V)) : list (res V) * prec :=
    match calls with
    | [] => ([], p)
    | (s, f) :: calls =>
        let (r, p) := prec_call p s f in
        let (rs, p) := prec_calls p calls in (r :: rs, p)
    end.
End Preconditioner.
