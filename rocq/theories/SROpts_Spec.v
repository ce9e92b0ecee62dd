(** * How the preconditioner should be configured *)
From Coq Require Import String List Arith ZArith QArith Bool.
From Verif Require Import Base SROpts_Model.
Import ListNotations.
Open Scope string_scope.
Open Scope list_scope.

(** a keyword argument, if given *)
Definition given (k : string) (v : option val) : kwargs := match v with Some v => [(k, v)] | None => [] end.
(** keywords with a meaning of their own; the others are meant for the tensor *)
Definition reserved := ["qgt"; "solver"; "diag_shift"; "solver_restart"; "matrix"; "iterative"; "method";
  "tol"; "atol"; "maxiter"; "M"; "restart"; "solve_method"].
Definition for_tensor (extra : kwargs) : Prop := Forall (fun p => ~ In (fst p) reserved) extra.

(** The object that has exactly the given options, and the documented defaults otherwise. *)
Definition configured (qgt solver shift : option val) (extra : kwargs) (restart : val) (o : sr) : Prop :=
  sr_solver o = match solver with Some s => s | None => VSolver Cg end /\
  sr_qgt o = match qgt with
             | Some q => q
             | None => match sr_solver o with VSolver s => VQgt (Auto s) | _ => VQgt (Auto (UserSolver 0)) end
             end /\
  sr_kwargs o = ("diag_shift", match shift with Some d => d | None => VNum (1 # 100) end) :: extra /\
  sr_restart o = restart.

Definition is_legacy (k : string) : Prop := In k ["tol"; "atol"; "maxiter"; "M"; "restart"; "solve_method"].
Definition builtin (q : val) : Prop := forall i, q <> VQgt (UserQgt i).

(** solvers that need the matrix, with or without options fixed beforehand *)
Inductive direct : solver_t -> Prop :=
| D_cholesky : direct Cholesky | D_svd : direct Svd | D_lu : direct LUs | D_solve : direct Solve
| D_partial s kw : (forall s' kw', s <> PartialSolver s' kw') -> direct s -> direct (PartialSolver s kw).
(** partial applications of partial applications are flattened by functools *)
Definition flat_solver (s : solver_t) : Prop :=
  match s with PartialSolver (PartialSolver _ _) _ => False | _ => True end.
(** the class chosen: the dense Jacobian for direct solvers; for the others a Jacobian only
    beyond 6 leaves and 800 parameters, dense if all variables are of one kind *)
Definition chosen (s : solver_t) (v : vstate) (q : qgt_t) : Prop :=
  (direct s /\ q = JacDense) \/
  (~ direct s /\ (6 < vs_leaves v)%nat /\ (800 < vs_params v)%N /\ vs_homogeneous v = true /\ q = JacDense) \/
  (~ direct s /\ (6 < vs_leaves v)%nat /\ (800 < vs_params v)%N /\ vs_homogeneous v = false /\ q = JacPyTree) \/
  (~ direct s /\ ((vs_leaves v <= 6)%nat \/ (vs_params v <= 800)%N) /\ q = OnTheFly).
(** options of the tensors; of mode and holomorphic at most one is given *)
Definition options_of (q : qgt_t) (k : string) : Prop :=
  match q with
  | OnTheFly => k = "diag_shift"
  | JacDense | JacPyTree => k = "mode" \/ k = "holomorphic" \/ k = "rescale_shift" \/ k = "diag_shift" \/ k = "_in_solve"
  | _ => False
  end.
Definition is_set (k : string) (kw : kwargs) : Prop := exists v, get k kw = Some v /\ v <> VNone.
