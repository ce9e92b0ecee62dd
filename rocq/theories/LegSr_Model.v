(** * Stochastic reconfiguration of the legacy drivers, numpy version
      (netket/legacy/optimizer/numpy/stochastic_reconfiguration.py)

    Vectors and matrices are functions of indices, of which the first [n] count; a sample is
    its vector of log-derivatives; exact complex arithmetic.  The solvers of scipy are
    oracles.  Collectives are functions of what all ranks contribute (contiguous arrays, see
    MpiPrim_Model).  All ranks are given the same gradient. *)
From Coq Require Import String List Arith ZArith Bool Reals.
From Verif Require Import Base Rings ARNN_Model Estim_Model LegVmc_Model.
Import ListNotations.
Open Scope R_scope.
Open Scope nat_scope.

Definition vec := nat -> cpx.
Definition mat := nat -> nat -> cpx.

(** ** options, 20-97 *)
Inductive solver := Gmres | Cg | Minres | Gelsy | Lstsq | Cho.
(** A name contains another one (the operator [in] on strings) *)
Fixpoint contains (part s : string) : bool :=
  String.prefix part s || match s with EmptyString => false | String _ s => contains part s end.
(** 56-97, [_init_solver]: the flag [use_iterative] and the solver used *)
Definition init_solver (name : option string) (use_iterative : bool) (complex_pars : bool) (svd_threshold : option R) : res (bool * solver) :=
  let is := fun s => match name with Some t => String.eqb t s | None => false end in
  let has := fun s => match name with Some t => contains s t | None => false end in
  let use_iterative := if is "gmres"%string || is "cg"%string || is "minres"%string then true else use_iterative in
  let use_iterative := if is "ColPivHouseholder"%string || is "QR"%string || is "SVD"%string || is "Cholesky"%string then false else use_iterative in
  let? k :=
    if use_iterative then
      if match name with None => complex_pars | Some _ => is "gmres"%string end then Ok Gmres
      else if is "cg"%string then Ok Cg
      else if match name with None => true | Some _ => is "minres"%string end then (if complex_pars then Err RuntimeError else Ok Minres)
      else Err RuntimeError
    else
      if match name with None => true | Some _ => has "ColPivHouseholder"%string || has "QR"%string end then Ok Gelsy
      else if has "SVD"%string || has "Cholesky"%string then Ok (if is "Cholesky"%string then Cho else Lstsq)
      else Err RuntimeError in
  match use_iterative, svd_threshold with
  | true, Some _ => Err ValueError
  | _, _ => Ok (use_iterative, k)
  end.

(** ** the equation *)
Section SR.
  Variable n : nat.
  Variable shift : R.
  Variable ranks : list (list vec).            (* log-derivatives of the samples of every rank *)
  (** 129: [oks -= _mean(oks, axis=0)] *)
  Definition centered : list (list vec) :=
    map (map (fun o k => rsub cC (o k) (mean_all (map (map (fun o => o k)) ranks)))) ranks.
  (** 136 *)
  Definition n_samp : nat := length (concat ranks).
  (** oks.conj().T @ oks *)
  Definition gram (rows : list vec) : mat := fun i j => lsum cC (map (fun o => rmul cC (rconj cC (o i)) (o j)) rows).
  (** 162-164 *)
  Definition s_complex : mat := fun i j => rscal (/ INR n_samp) (lsum cC (map (fun rows => gram rows i j) centered)).
  (** 200-201: not summed over the ranks; on the rank that has [rows] *)
  Definition s_real (rows : list vec) : mat := fun i j => rscal (/ INR n_samp) (gram rows i j).
  (** 226-245: [fill] on an array selected by a mask acts on a copy *)
  Definition cutoff : R := / 10000000000.
  Definition diag_of (S : mat) (i : nat) : R := let d := sqrt (fst (S i i)) in if Rle_dec d cutoff then 1%R else d.
  Definition precondition (scale_inv : bool) (S : mat) (grad : vec) : mat * vec :=
    let S1 : mat :=
      if scale_inv then fun i j => rscal (/ fsum rR n (fun k => (diag_of S k * diag_of S k)%R)) (if i =? j then r1 cC else S i j) else S in
    let g1 := if scale_inv then fun i => rscal (/ diag_of S i) (grad i) else grad in
    (fun i j => radd cC (S1 i j) (if i =? j then (shift, 0%R) else r0 cC), g1).
  (** 255-258 *)
  Definition revert (scale_inv : bool) (S : mat) (out : vec) : vec :=
    if scale_inv then fun i => rscal (/ diag_of S i) (out i) else out.
  (** 293-321 *)
  Definition matvec (real_pars : bool) (v : vec) : vec := fun i =>
    let x := radd cC (lsum cC (map (fun rows => lsum cC (map (fun o =>
        rmul cC (rscal (/ INR n_samp) (fsum cC n (fun j => rmul cC (o j) (v j)))) (rconj cC (o i))) rows)) centered))
      (rscal shift (v i)) in
    if real_pars then (fst x, 0%R) else x.
  Definition re_vec (v : vec) : vec := fun i => (fst (v i), 0%R).
  Definition re_mat (S : mat) : mat := fun i j => (fst (S i j), 0%R).

  Variable dense : solver -> mat -> vec -> vec.                  (* lstsq or cho_solve *)
  Variable krylov : solver -> (vec -> vec) -> vec -> vec -> vec * Z.  (* and the info *)
  (** 112-224, on every rank.  The start of the iteration is the last solution.  What bcast
      returns is not used. *)
  Definition compute_update (complex_pars : option bool) (use_iterative scale_inv : bool) (k : solver) (x0 : option vec) (grad : vec)
    : list (res vec) :=
    match complex_pars with
    | None => map (fun _ => Err ValueError) ranks
    | Some c =>
        map (fun rows =>
          if use_iterative then
            let start := match x0 with Some x => x | None => fun _ => r0 cC end in
            let (x, info) := krylov k (matvec (negb c)) (if c then grad else re_vec grad) start in
            if (info <? 0)%Z then Err RuntimeError else Ok (if c then x else re_vec x)
          else
            let S := if c then s_complex else s_real rows in
            let (S1, g1) := precondition scale_inv S grad in
            let x := match k with
                     | Cho => dense k S1 g1
                     | _ => if c then dense k S1 g1 else dense k (re_mat S1) (re_vec g1)
                     end in
            Ok (revert scale_inv S (if c then x else re_vec x))) centered
    end.
End SR.
