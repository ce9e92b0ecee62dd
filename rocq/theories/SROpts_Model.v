(** * Building the natural-gradient preconditioner
    netket/optimizer/sr/api.py, sr/deprecations.py, qgt/default.py; the signatures of the
    tensor constructors in qgt/qgt_onthefly.py 31-60, qgt_jacobian_dense.py 32-91,
    qgt_jacobian_pytree.py 32-93.

    Arguments are values of a small universe; keyword arguments are association lists with
    distinct keys.  The legacy machines (wraps_legacy) are left out. *)
From Coq Require Import String List Arith ZArith QArith Bool.
From Verif Require Import Base.
Import ListNotations.
Open Scope string_scope.
Open Scope list_scope.
Open Scope nat_scope.

(** The classes of tensors; QGTAuto with the solver it was given. *)
Inductive solver_t :=
| Cg | Gmres                                    (* jax.scipy.sparse.linalg *)
| Cholesky | Svd | LUs | Solve                  (* netket.optimizer.solver *)
| UserSolver (id : nat)
| PartialSolver (s : solver_t) (kw : list (string * Q)).
Inductive qgt_t := OnTheFly | JacDense | JacPyTree | Auto (s : solver_t) | UserQgt (id : nat).
Inductive val := VNum (q : Q) | VStr (s : string) | VQgt (q : qgt_t) | VSolver (s : solver_t) | VNone | VBool (b : bool).
Definition kwargs := list (string * val).

Definition has (k : string) (kw : kwargs) : bool := existsb (fun p => fst p =? k)%string kw.
Definition get (k : string) (kw : kwargs) : option val :=
  match find (fun p => fst p =? k)%string kw with Some p => Some (snd p) | None => None end.
Definition pop (k : string) (kw : kwargs) : kwargs := filter (fun p => negb (fst p =? k)%string) kw.
(** d[k] = v *)
Definition put (k : string) (v : val) (kw : kwargs) : kwargs :=
  if has k kw then map (fun p => if (fst p =? k)%string then (k, v) else p) kw else kw ++ [(k, v)].

(** The object: the constructor of the tensor with its keyword arguments, the solver, and
    the flag. *)
Record sr := SRObj { sr_qgt : val; sr_kwargs : kwargs; sr_solver : val; sr_restart : val }.

(** api.py 144-187: _SR(qgt=None, solver=None, *, diag_shift=0.01, solver_restart=False, **kwargs),
    called with positional arguments and keywords. *)
Definition make_SR (args : list val) (kw : kwargs) : res sr :=
  match args with
  | _ :: _ :: _ :: _ => Err TypeError
  | _ =>
      if (1 <=? length args) && has "qgt" kw then Err TypeError
      else if (2 <=? length args) && has "solver" kw then Err TypeError
      else
        let opt k d := match get k kw with Some v => v | None => d end in
        let qgt := nth 0 args (opt "qgt" VNone) in
        let solver := nth 1 args (opt "solver" VNone) in
        let diag_shift := opt "diag_shift" (VNum (1 # 100)) in
        let restart := opt "solver_restart" (VBool false) in
        let rest := pop "qgt" (pop "solver" (pop "diag_shift" (pop "solver_restart" kw))) in
        let solver := match solver with VNone => VSolver Cg | s => s end in
        let qgt := match qgt with
                   | VNone => match solver with VSolver s => VQgt (Auto s) | _ => VQgt (Auto (UserSolver 0)) end
                   | q => q
                   end in
        Ok (SRObj qgt (("diag_shift", diag_shift) :: rest) solver restart)
  end.

Definition legacy_solver_kwargs := ["tol"; "atol"; "maxiter"; "M"; "restart"; "solve_method"].
Definition is_num (v : val) : bool := match v with VNum _ => true | _ => false end.
Definition is_str (v : val) : bool := match v with VStr _ => true | _ => false end.
Definition num_of (v : val) : Q := match v with VNum q => q | _ => 0%Q end.
(** api.py 36-135, decorated: build_SR( *args, solver_restart=False, **kwargs).  The keyword
    solver_restart is bound by the signature and is not in [kw]. *)
Definition build_SR (args : list val) (solver_restart : val) (kw : kwargs) : res sr :=
  if has "matrix" kw then make_SR args kw
  else
    let old_api :=
      existsb (fun k => has k kw) (["iterative"; "method"] ++ legacy_solver_kwargs)
      || match args with a :: _ => is_num a | [] => false end
      || match args with _ :: b :: _ => is_str b | _ => false end in
    let finish args kw := make_SR args (("solver_restart", solver_restart) :: kw) in
    if old_api then
      match args with
      | _ :: _ :: _ :: _ => Err TypeError
      | _ =>
          let kw := match args with a :: _ => put "diag_shift" a kw | [] => kw end in
          let kw := match args with _ :: b :: _ => put "method" b kw | _ => kw end in
          let kw := pop "iterative" kw in
          let method :=
            match get "method" kw with
            | None => Ok Cg
            | Some (VStr m) => if (m =? "cg")%string then Ok Cg else if (m =? "gmres")%string then Ok Gmres else Err ValueError
            | Some _ => Err ValueError
            end in
          let? s := method in
          let kw := pop "method" kw in
          (* the keywords are copied to the solver, and stay *)
          let keys := filter (fun k => has k kw) legacy_solver_kwargs in
          let s := match keys with
                   | [] => s
                   | _ => PartialSolver s (map (fun k => (k, match get k kw with Some v => num_of v | None => 0%Q end)) keys)
                   end in
          finish [] (put "solver" (VSolver s) kw)
      end
    else finish args kw.

(** deprecations.py: SRLazyCG and SRLazyGMRES(diag_shift=0.01, centered=None, **kwargs).
    Without keyword arguments partial(solver) has none. *)
Definition sr_lazy (s : solver_t) (diag_shift : val) (kw : kwargs) : res sr :=
  let restart := match get "solver_restart" kw with Some v => v | None => VBool false end in
  if has "solver" kw || has "diag_shift" kw then Err TypeError
  else build_SR [VQgt OnTheFly] restart
    (("solver", VSolver (PartialSolver s (map (fun p => (fst p, num_of (snd p))) kw))) :: ("diag_shift", diag_shift)
      :: pop "solver_restart" kw).

(** ** qgt/default.py *)
Definition base_solver (s : solver_t) : solver_t := match s with PartialSolver s _ => s | s => s end.
(** 31-41; partial(partial(f)) is flattened by functools *)
Definition is_dense_solver (s : solver_t) : bool :=
  match base_solver s with Cholesky | Svd | LUs | Solve => true | _ => false end.
(** what is looked at of a state: leaves of the parameters, number of parameters, and
    whether all variables have one dtype class *)
Record vstate := VState { vs_leaves : nat; vs_params : N; vs_homogeneous : bool }.
(** 44-62 *)
Definition default_qgt (s : solver_t) (v : vstate) : qgt_t :=
  if is_dense_solver s then JacDense
  else if (6 <? vs_leaves v) && (800 <? vs_params v)%N then
    if vs_homogeneous v then JacDense else JacPyTree
  else OnTheFly.
(** 66-107: the choice is remembered for the state object (compared by identity, [id]) it
    was made for. *)
Definition cache := option (nat * qgt_t).
Definition auto_call (s : solver_t) (c : cache) (id : nat) (v : vstate) : cache * qgt_t :=
  match c with
  | Some (id', q) => if id =? id' then (c, q) else let q := default_qgt s v in (Some (id, q), q)
  | None => let q := default_qgt s v in (Some (id, q), q)
  end.

(** The keywords a constructor accepts; the others it passes are its own. *)
Definition accepted (q : qgt_t) : list string :=
  match q with
  | OnTheFly => ["diag_shift"]
  | JacDense | JacPyTree => ["mode"; "holomorphic"; "rescale_shift"; "diag_shift"; "_in_solve"]
  | _ => []
  end.
(** Constructing the tensor with the keyword arguments of the preconditioner. *)
Definition construct (q : qgt_t) (kw : kwargs) : res unit :=
  if existsb (fun p => negb (existsb (fun k => k =? fst p)%string (accepted q))) kw then Err TypeError
  else match get "mode" kw, get "holomorphic" kw with
       | Some m, Some h => match m, h with
                           | VNone, _ | _, VNone => Ok tt
                           | _, _ => Err ValueError
                           end
       | _, _ => Ok tt
       end.
(** The first step of calling the preconditioner on a state: which class is built. *)
Definition sr_construct (o : sr) (v : vstate) : res qgt_t :=
  match sr_qgt o with
  | VQgt (Auto s) => let q := default_qgt s v in let? _ := construct q (sr_kwargs o) in Ok q
  | VQgt (UserQgt i) => Ok (UserQgt i)
  | VQgt q => let? _ := construct q (sr_kwargs o) in Ok q
  | _ => Err TypeError
  end.
