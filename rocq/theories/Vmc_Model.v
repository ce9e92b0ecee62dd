(** * The drivers VMC and SteadyState
      (netket/driver/vmc.py, steady_state.py; abstract_variational_driver.py 42-66, 152-172,
       291-319; optimizer/preconditioner.py 35-36)

    Preconditioner objects live in a heap that holds their option [solver_restart]; the
    function identity_preconditioner is [None].  Parameters are numbered, [flag ls k] says
    that number [k] is complex; the entries of real ones have imaginary part zero.  What the
    variational state returns and what a preconditioner computes are inputs.  The optimizer
    is plain gradient descent. *)
From Coq Require Import String List Arith Bool Reals.
From Verif Require Import Base Rings ARNN_Model ToArray_Model Estim_Model QGT_Model.
Import ListNotations.
Open Scope R_scope.
Local Open Scope string_scope.

Record driver := Driver { d_loss : string; d_prec : option nat; d_count : nat }.
Definition heap := nat -> bool.
Definition set_restart (h : heap) (r : nat) (v : bool) : heap := fun q => if (q =? r)%nat then v else h q.

(** vmc.py 75-106, steady_state.py 63-93: [sr] and [sr_restart] *)
Definition options (prec sr : option nat) (sr_restart : option bool) (h : heap) : res (option nat) * heap :=
  match sr, prec with
  | Some _, Some _ => (Err ValueError, h)
  | _, _ =>
      let prec := match sr with Some r => Some r | None => prec end in
      match sr_restart with
      | None => (Ok prec, h)
      | Some v => match prec with
                  | None => (Err ValueError, h)
                  | Some r => (Ok prec, set_restart h r v)
                  end
      end
  end.
(** vmc.py 40-122; [hs] and [hh] are the spaces of the state and of the Hamiltonian *)
Definition vmc_init (hs hh : nat) (prec sr : option nat) (sr_restart : option bool) (h : heap) : res driver * heap :=
  if negb (hs =? hh)%nat then (Err TypeError, h)
  else match options prec sr sr_restart h with
       | (Err e, h) => (Err e, h)
       | (Ok p, h) => (Ok (Driver "Energy" p 0), h)
       end.
(** steady_state.py 33-105; the spaces are not compared *)
Definition steady_init (super : bool) (hs hl : nat) (prec sr : option nat) (sr_restart : option bool) (h : heap) : res driver * heap :=
  if negb super then (Err TypeError, h)
  else match options prec sr sr_restart h with
       | (Err e, h) => (Err e, h)
       | (Ok p, h) => (Ok (Driver "LdagL" p 0), h)
       end.
(** vmc.py 167-177, steady_state.py 148-157: [self.sr] does not exist *)
Definition vmc_info (d : driver) : res string := Err AttributeError.

Section Step.
  Variable E : Type.
  Variable ls : leaves.
  Definition vec := nat -> cpx.
  (** of the variational state, with the current parameters *)
  Variable expect_and_grad : vec -> res (E * vec).
  Variable precondition : vec -> vec -> res vec.

  (** vmc.py 141-145: real parameters take the real part *)
  Definition take_real (d : vec) : vec := fun k => if flag ls k then d k else (fst (d k), 0).
  (** vmc.py 124-147, steady_state.py 107-130 *)
  Definition forward_and_backward (p : vec) : res (E * vec) :=
    let? eg := expect_and_grad p in
    let (e, g) := eg in
    let? x := precondition p g in
    Ok (e, take_real x).
  (** abstract_variational_driver.py 300-319 with optax.sgd(lr): updates are - lr d *)
  Definition sgd (lr : R) (d p : vec) : vec :=
    fun k => if flag ls k then rsub cC (p k) (rscal lr (d k)) else (fst (p k) - lr * fst (d k), snd (p k)).
  (** 152-172, 174-181: [n] steps; what is reported, and the parameters *)
  Fixpoint steps (lr : R) (n : nat) (p : vec) : res (list E * vec) :=
    match n with
    | O => Ok ([], p)
    | S n =>
        let? ed := forward_and_backward p in
        let (e, d) := ed in
        let? rest := steps lr n (sgd lr d p) in
        let (es, q) := rest in
        Ok (e :: es, q)
    end.
End Step.
