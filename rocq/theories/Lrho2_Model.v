(** * The steady-state cost and its gradient (netket/vqs/mc_state.py 765-846,
    netket/operator/_der_local_values_jax.py 45-58 and 94-101, netket/vqs/base.py 164-294,
    netket/driver/steady_state.py 109-133)

    One scalar parameter of a tree of parameters.  Configurations of the doubled space are
    numbered; a sample carries its weight, as in [Estim_Model].  [nodes] is the number of
    MPI ranks; the samples are those of all ranks together.  The derivatives of the
    log-amplitude are what automatic differentiation returns. *)
From Coq Require Import List Arith Reals Bool.
From Verif Require Import Base Rings ARNN_Model ToArray_Model Estim_Model JaxUtils_Model.
Import ListNotations.
Open Scope R_scope.

(** Derivatives at every configuration. *)
Record derivs := Derivs { dux : nat -> R; duy : nat -> R; dvx : nat -> R; dvy : nat -> R }.

(** _der_local_values_jax.py 47-53: the weights of the connected states, conjugated and
    converted to the type of the log-amplitude. *)
Definition kernel_vec (out_complex : bool) (log_psi : nat -> cpx) (s : nat) (conn : list (nat * cpx)) : list cpx :=
  map (fun c => to_type out_complex
     (rconj cC (rmul cC (snd c) (cexp (rsub cC (log_psi (fst c)) (log_psi s)))))) conn.
(** 54 *)
Definition kernel_value out_complex log_psi s conn : cpx := lsum cC (kernel_vec out_complex log_psi s conn).
(** 46, 55: the vector-Jacobian product at the connected states *)
Definition conn_jac (d : derivs) (conn : list (nat * cpx)) : jac :=
  let at_ (f : nat -> R) i := f (fst (nth i conn (0%nat, r0 cC))) in
  Jac (at_ (dux d)) (at_ (duy d)) (at_ (dvx d)) (at_ (dvy d)).
Definition kernel_grad any_complex this_complex out_complex log_psi d s (conn : list (nat * cpx)) : cpx :=
  let vec := kernel_vec out_complex log_psi s conn in
  nk_vjp (length conn) any_complex this_complex out_complex out_complex false (conn_jac d conn)
    (fun i => rconj cC (nth i vec (r0 cC))).

(** _grad.py 134-203 at configuration [s]; jax.grad of a holomorphic function pulls back
    the number one, and refuses trees with real leaves. *)
Definition nk_grad (any_complex this_complex out_complex : bool) (d : derivs) (s : nat) : res cpx :=
  if any_complex then
    if out_complex then
      if this_complex then Ok (jax_vjp (1, 0) (dux d s) (duy d s) (dvx d s) (dvy d s)) else Err TypeError
    else Err RuntimeError
  else if out_complex then Ok (radd cC (dux d s, 0) (rmul cC (0, 1) (dvx d s, 0)))
  else Ok (dux d s, 0).

(** mc_state.py 765-846: mean of the cost and gradient.  [wsum] is the mean over the
    samples of all ranks (nk.stats.mean and statistics). *)
Definition lrho2 (nodes : nat) (any_complex this_complex out_complex : bool) (log_psi : nat -> cpx)
    (conn : nat -> list (nat * cpx)) (d : derivs) (samples : list (R * nat)) : res (cpx * cpx) :=
  let lrho s := rconj cC (kernel_value out_complex log_psi s (conn s)) in
  let der_loc s := kernel_grad any_complex this_complex out_complex log_psi d s (conn s) in
  let ldagl := wsum samples (fun s => (cnorm2 (lrho s), 0)) in
  (* nk_grad is Ok or Err whatever the configuration *)
  let? _ := nk_grad any_complex this_complex out_complex d 0 in
  let der_logs s := match nk_grad any_complex this_complex out_complex d s with Ok z => z | Err _ => r0 cC end in
  let ave := wsum samples der_logs in
  (* 826: mpi_sum_jax of a mean which is already over all ranks *)
  let ave := rscal (INR nodes) ave in
  Ok (ldagl, rsub cC (wsum samples (fun s => rmul cC (rconj cC (der_loc s)) (lrho s)))
                     (rmul cC (rconj cC ave) ldagl)).

(** steady_state.py 109-133 without preconditioner: the update of one parameter; the real
    part is taken of a real parameter's *)
Definition steady_update nodes any_complex this_complex out_complex log_psi conn d samples : res (cpx * cpx) :=
  let? r := lrho2 nodes any_complex this_complex out_complex log_psi conn d samples in
  let '(v, g) := r in Ok (v, if this_complex then g else (fst g, 0)).

(** ** Which estimator is used (mc_state.py 479-558) *)
Inductive operator_ := Plain (hermitian_ superop : bool) | SquaredOf (superop : bool).
Inductive estimator :=
| EHermitian          (* grad_expect_hermitian, of the operator *)
| ELrho2              (* grad_expect_operator_Lrho2, of the square of the super-operator *)
| EValue              (* grad_expect_operator_kernel, of the operator or of what is squared *)
| ESquare.            (* grad_expect_operator_kernel, of the square *)
(** [None]: the object NotImplemented is returned *)
Definition expect_and_grad (same_hilbert : bool) (is_hermitian : option bool) (experimental : bool) (op : operator_)
  : res (option estimator) :=
  if negb same_hilbert then Ok None else
  let op_hermitian := match op with Plain h _ => h | SquaredOf _ => true end in
  let h := match is_hermitian with Some b => b | None => op_hermitian end in
  let kernel e := if experimental then Ok (Some e) else Err RuntimeError in
  if h then
    match op with
    | SquaredOf true => Ok (Some ELrho2)
    | SquaredOf false => kernel ESquare
    | Plain _ _ => Ok (Some EHermitian)
    end
  else kernel EValue.
(** base.py 254-270 and 479-487: a mixed state; [same_doubled]: the operator acts on the
    doubled space, [same_physical]: on the physical one *)
Definition mixed_expect_and_grad (same_doubled same_physical : bool) is_hermitian experimental op :=
  if same_doubled then expect_and_grad same_doubled is_hermitian experimental op
  else if same_physical then expect_and_grad same_doubled is_hermitian experimental op
  else Ok None.
(** base.py 164-177: [is_hermitian] is not passed on; NotImplemented[1] is a TypeError *)
Definition grad_of (eag : option bool -> bool -> operator_ -> res (option estimator))
    (is_hermitian : option bool) (experimental : bool) (op : operator_) : res estimator :=
  let? r := eag None experimental op in
  match r with Some e => Ok e | None => Err TypeError end.
