(** * Derivatives and stochastic reconfiguration of the legacy machines, jax version
      (netket/legacy/machine/_jax_utils.py, netket/legacy/optimizer/jax/_sr_onthefly.py and
      stochastic_reconfiguration.py)

    A sample is its vector of derivatives of log psi, one per scalar parameter, numbered in
    the order of the leaves; the derivative by a complex parameter is the holomorphic one.
    Exact complex arithmetic.  Collectives are functions of what all ranks contribute; what
    is returned is the same on all of them.  cg is an oracle. *)
From Coq Require Import String List Arith ZArith Bool Reals.
From Verif Require Import Base Rings ARNN_Model Estim_Model LegSr_Model.
Import ListNotations.
Open Scope R_scope.
Open Scope nat_scope.

(** An array of type float (no imaginary parts) or complex *)
Definition keep (cplx : bool) (z : cpx) : cpx := if cplx then z else (fst z, 0%R).

(** ** derivatives *)
Section Vjp.
  Variable cplx : nat -> bool.       (* is scalar parameter k complex? *)
  Variable n : nat.
  Variable out_complex : bool.       (* type of log psi *)
  Definition any_complex : bool := existsb cplx (seq 0 n).
  (** jax.vjp: contraction of the cotangent with the derivatives; the gradient of a real
      leaf is real.  A cotangent of another type than the output is a TypeError. *)
  Definition pull (rows : list vec) (w : list cpx) : vec :=
    fun k => keep (cplx k) (lsum cC (map (fun p => rmul cC (fst p) (snd p k)) (combine w rows))).
  Definition re_rows : list vec -> list vec := map (fun o k => (fst (o k), 0%R)).
  Definition im_rows : list vec -> list vec := map (fun o k => (snd (o k), 0%R)).
  Definition re_list : list cpx -> list cpx := map (fun z => (fst z, 0%R)).
  Definition im_list : list cpx -> list cpx := map (fun z => (snd z, 0%R)).
  Definition neg_list : list cpx -> list cpx := map (ropp cC).
  Definition imul (z : cpx) : cpx := rmul cC (0%R, 1%R) z.
  (** 120-128 *)
  Definition vjp_cc (rows : list vec) (vec_ : list cpx) (conjugate : bool) : res vec :=
    if out_complex then
      let out := pull rows (map (rconj cC) vec_) in
      Ok (if conjugate then fun k => rconj cC (out k) else out)
    else Err TypeError.
  (** 131-142 *)
  Definition vjp_rr (rows : list vec) (vec_ : list cpx) (conjugate : bool) : vec :=
    let out_r := pull rows (re_list vec_) in
    let out_i := pull rows (neg_list (im_list vec_)) in
    if conjugate then fun k => rsub cC (out_r k) (imul (out_i k)) else fun k => radd cC (out_r k) (imul (out_i k)).
  (** 145-173 *)
  Definition vjp_rc (rows : list vec) (vec_ : list cpx) (conjugate : bool) : vec :=
    let vr_jr := pull (re_rows rows) (re_list vec_) in
    let vj_jr := pull (re_rows rows) (im_list vec_) in
    let vr_jj := pull (im_rows rows) (re_list vec_) in
    let vj_jj := pull (im_rows rows) (im_list vec_) in
    let r := fun k => rsub cC (vr_jr k) (imul (vj_jr k)) in
    let i := fun k => rsub cC (vr_jj k) (imul (vj_jj k)) in
    let out := fun k => radd cC (r k) (imul (i k)) in
    if conjugate then fun k => rconj cC (out k) else out.
  (** 177-194; the type of the sensitivity [vec_] is [vec_complex] *)
  Definition vjp (rows : list vec) (vec_complex : bool) (vec_ : list cpx) (conjugate : bool) : res vec :=
    let out_dtype := out_complex || vec_complex in
    if any_complex then if out_dtype then vjp_cc rows vec_ conjugate else Err RuntimeError
    else Ok (if out_dtype then vjp_rc rows vec_ conjugate else vjp_rr rows vec_ conjugate).
  (** 82-114, one sample.  jax.grad of a holomorphic function wants all leaves complex. *)
  Definition grad_of (o : vec) : res vec :=
    if any_complex then
      if out_complex then (if forallb cplx (seq 0 n) then Ok o else Err TypeError) else Err RuntimeError
    else Ok (if out_complex then fun k => radd cC (fst (o k), 0%R) (imul (snd (o k), 0%R)) else fun k => (fst (o k), 0%R)).
End Vjp.

(** ** products with the matrix, _sr_onthefly.py *)
Section OnTheFly.
  Variable n : nat.
  Variable cplx : nat -> bool.
  Variable shift : R.
  Variable ranks : list (list vec).
  (** 1.0 / (samples.shape[0] * n_nodes) on the rank with these samples *)
  Definition share (rows : list vec) : R := (/ INR (length rows * length ranks))%R.
  (** 24-36 *)
  Definition tree_dot (a b : vec) : cpx := fsum cC n (fun k => rmul cC (a k) (b k)).
  (** 69-73 *)
  Definition o_jvp (rows : list vec) (v : vec) : list cpx := map (fun o => fsum cC n (fun k => rmul cC (o k) (v k))) rows.
  (** 76-98, without the sum over the ranks *)
  Definition o_mean (rows : list vec) : vec := pull cplx rows (map (fun _ => (share rows, 0%R)) rows).
  (** 101-115 with 16-21 and 39-56 *)
  Definition oh_w (ws : list (list cpx)) : vec := fun k =>
    keep (cplx k) (rconj cC (lsum cC (map (fun p => pull cplx (snd p) (map (rconj cC) (fst p)) k) (combine ws ranks)))).
  (** 118-145 *)
  Definition odagger_deltao_v (v : vec) : vec :=
    let omeanv := lsum cC (map (fun rows => tree_dot (o_mean rows) v) ranks) in
    oh_w (map (fun rows => map (fun x => rscal (share rows) (rsub cC x omeanv)) (o_jvp rows v)) ranks).
  (** 151-169 with 59-66 *)
  Definition mat_vec (v : vec) : vec := fun k => radd cC (rscal shift (v k)) (odagger_deltao_v v k).

  (** ** with the stored derivatives, stochastic_reconfiguration.py *)
  (** 94-96 *)
  Definition centered_oks : list (list vec) :=
    map (map (fun o k => rsub cC (o k) (lsum cC (map (fun rows => rscal (share rows) (lsum cC (map (fun o => o k) rows))) ranks)))) ranks.
  (** 16-26 *)
  Definition s_grad_mul (oks : list (list vec)) (v : vec) : vec := fun i =>
    lsum cC (map (fun rows => lsum cC (map (fun o =>
      rmul cC (rconj cC (o i)) (rscal (share rows) (fsum cC n (fun j => rmul cC (o j) (v j))))) rows)) oks).
  (** 29-44 *)
  Definition matvec_cmplx (v : vec) : vec := fun i => radd cC (rscal shift (v i)) (s_grad_mul centered_oks v i).
  Definition matvec_real (v : vec) : vec := fun i => keep false (matvec_cmplx v i).
End OnTheFly.

(** ** the object *)
(** A machine: number of scalar parameters, types *)
Record machine := Machine { m_n : nat; m_cplx : nat -> bool }.
Definition has_complex (m : machine) : bool := any_complex (m_cplx m) (m_n m).
(** The last solution: a flat vector, or a tree shaped as the parameters; its size *)
Inductive start := Flat (n : nat) (x : vec) | Tree (n : nat) (x : vec).
Record sr := SR { sr_machine : option machine; sr_x0 : option start; sr_shift : R }.
Definition str_in (name : option string) (l : list string) : bool :=
  match name with Some t => existsb (String.eqb t) l | None => false end.
(** 134-151: the flag [use_iterative]; the solver is cg.  The warning is raised, which is an
    exception; an exception of type Warning is written Exception_. *)
Definition init_solver (name : option string) (use_iterative : bool) : res bool :=
  let use_iterative := if str_in name ["gmres"; "cg"; "minres"; "jaxcg"]%string then true else use_iterative in
  let use_iterative := if str_in name ["ColPivHouseholder"; "QR"; "SVD"; "Cholesky"]%string then false else use_iterative in
  if use_iterative then
    if match name with None => true | Some _ => str_in name ["cg"%string] end then Ok use_iterative
    else if str_in name ["gmres"; "minres"]%string then Err Exception_
    else Err RuntimeError
  else Ok use_iterative.
(** 153-169 *)
Definition setup (s : sr) (m : machine) : sr := SR (Some m) (sr_x0 s) (sr_shift s).
(** 104-132.  The threshold of the singular values is ignored. *)
Definition make (n_nodes : nat) (mpi4jax : bool) (m : option machine) (name : option string) (shift : R) (use_iterative : bool) : res sr :=
  if (1 <? n_nodes) && negb mpi4jax then Err RuntimeError else
  let? it := init_solver name use_iterative in
  if negb it then Err NotImplementedError else
  let s := SR None None shift in
  Ok (match m with Some m => setup s m | None => s end).

Section Update.
  (** jax.scipy.sparse.linalg.cg on [n] unknowns: operator, right-hand side, start *)
  Variable cg : nat -> (vec -> vec) -> vec -> vec -> vec.
  (** It wants the start to have the structure and shapes of the right-hand side. *)
  Definition flat_start (n : nat) (x0 : option start) : res vec :=
    match x0 with
    | None => Ok (fun _ => r0 cC)
    | Some (Flat k x) => if k =? n then Ok x else Err ValueError
    | Some (Tree _ _) => Err ValueError
    end.
  Definition tree_start (n : nat) (x0 : option start) : res vec :=
    match x0 with
    | None => Ok (fun _ => r0 cC)
    | Some (Tree k x) => if k =? n then Ok x else Err ValueError
    | Some (Flat _ _) => Err ValueError
    end.
  (** 171-240.  The solution is cut into arrays shaped as the parameters (vmc_common.py
      113-135), which keep the type of the solution. *)
  Definition compute_update (s : sr) (ranks : list (list vec)) (grad : vec) : res (vec * sr) :=
    match sr_machine s with
    | None => Err ValueError
    | Some m =>
        let n := m_n m in
        let? x0 := flat_start n (sr_x0 s) in
        let x := if has_complex m then cg n (matvec_cmplx n (sr_shift s) ranks) grad x0
                 else cg n (matvec_real n (sr_shift s) ranks) (fun k => keep false (grad k)) x0 in
        Ok (x, SR (sr_machine s) (Some (Flat n x)) (sr_shift s))
    end.
  (** 242-281 *)
  Definition compute_update_onthefly (s : sr) (ranks : list (list vec)) (grad : vec) : res (vec * sr) :=
    match sr_machine s with
    | None => Err AttributeError
    | Some m =>
        let n := m_n m in
        let grad := fun k => keep (m_cplx m k) (grad k) in
        let? x0 := tree_start n (sr_x0 s) in
        let x := cg n (mat_vec n (m_cplx m) (sr_shift s) ranks) grad x0 in
        Ok (x, SR (sr_machine s) (Some (Tree n x)) (sr_shift s))
    end.
  (** One call after another: samples and gradient of each *)
  Fixpoint updates (onthefly : bool) (s : sr) (calls : list (list (list vec) * vec)) : res (list vec * sr) :=
    match calls with
    | [] => Ok ([], s)
    | (ranks, grad) :: calls =>
        let? p := (if onthefly then compute_update_onthefly s ranks grad else compute_update s ranks grad) in
        let? q := updates onthefly (snd p) calls in
        Ok (fst p :: fst q, snd q)
    end.
End Update.
