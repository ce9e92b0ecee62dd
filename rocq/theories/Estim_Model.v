(** * Local estimators and gradients (netket/vqs/mc_state.py, netket/jax/_vjp.py)

    Complex numbers over the real numbers of the standard library.  Configurations are
    the numbers of the basis states.  A sample carries a weight: in the code every sample
    of the [n_samples] (over all ranks) has weight 1 / n_samples, and the weight of a
    configuration is the fraction of samples equal to it.  The derivatives of the
    log-amplitude are what automatic differentiation returns. *)
From Coq Require Import List Arith Reals.
From Verif Require Import Base Rings ARNN_Model ToArray_Model.
Import ListNotations.
Open Scope R_scope.

Notation cpx := (T cC).
Definition rR : cring := CRing R 0 1 Rplus Rmult Rminus Ropp (fun x => x).
Definition rscal (r : R) (z : cpx) : cpx := (r * fst z, r * snd z).
Definition wsum (samples : list (R * nat)) (f : nat -> cpx) : cpx :=
  lsum cC (map (fun s => rscal (fst s) (f (snd s))) samples).
Definition uniform (samples : list nat) : list (R * nat) :=
  map (fun s => (/ INR (length samples), s)) samples.

(** mc_state.py 63-64 and _local_cost_functions.py 203-205; [conn] are the connected
    states with their matrix elements, padding included. *)
Definition local_value (log_psi : nat -> cpx) (s : nat) (conn : list (nat * cpx)) : cpx :=
  lsum cC (map (fun c => rmul cC (snd c) (cexp (rsub cC (log_psi (fst c)) (log_psi s)))) conn).
(** 67-68 *)
Definition local_value_squared (log_psi : nat -> cpx) (s : nat) (conn : list (nat * cpx)) : cpx :=
  (cnorm2 (local_value log_psi s conn), 0).

(** 454-477, 602-634: the mean of the statistics. *)
Definition expect (squared : bool) (log_psi : nat -> cpx) (conn : nat -> list (nat * cpx)) (samples : list (R * nat))
  : cpx :=
  wsum samples (fun s => (if squared then local_value_squared else local_value) log_psi s (conn s)).

(** _vjp.py 118-138: contribution of one output with cotangent [y] and derivatives
    du + i dv with respect to one real parameter, conjugate=True. *)
Definition vjp_rc (y : cpx) (du dv : R) : cpx :=
  let vr_jr := fst y * du in
  let vj_jr := snd y * du in
  let vr_jj := fst y * dv in
  let vj_jj := snd y * dv in
  let r := (vr_jr, vj_jr) in
  let i := (vr_jj, vj_jj) in
  rconj cC (radd cC r (rmul cC (0, 1) i)).
(** 67-81: real output. *)
Definition vjp_rr (y : cpx) (du : R) : cpx := (fst y * du, - (snd y * du)).
(** 35-56: one complex parameter x + i y; jax.vjp of a function u + i v maps c + i d to
    (c u_x - d v_x) - i (c u_y - d v_y). *)
Definition jax_vjp (y : cpx) (ux uy vx vy : R) : cpx :=
  (fst y * ux - snd y * vx, - (fst y * uy - snd y * vy)).
Definition vjp_cc (y : cpx) (ux uy vx vy : R) : cpx := rconj cC (jax_vjp y ux uy vx vy).
(** C -> R: the cotangent is cast to the real output type. *)
Definition vjp_cr (y : cpx) (ux uy : R) : cpx := rconj cC (jax_vjp (fst y, 0) ux uy 0 0).

(** 637-694: grad_expect_hermitian for one scalar parameter. *)
Definition centered (log_psi : nat -> cpx) (conn : nat -> list (nat * cpx)) (samples : list (R * nat)) (s : nat) : cpx :=
  rsub cC (local_value log_psi s (conn s)) (expect false log_psi conn samples).
Definition cotangent log_psi conn samples (w : R) (s : nat) : cpx :=
  rscal w (rconj cC (centered log_psi conn samples s)).
(** real parameter, complex or real output; the result is cast to the parameter's type *)
Definition grad_real log_psi conn samples (du dv : nat -> R) : R :=
  fst (lsum cC (map (fun s => vjp_rc (cotangent log_psi conn samples (fst s) (snd s)) (du (snd s)) (dv (snd s))) samples)).
Definition grad_real_rr log_psi conn samples (du : nat -> R) : R :=
  fst (lsum cC (map (fun s => vjp_rr (cotangent log_psi conn samples (fst s) (snd s)) (du (snd s))) samples)).
(** complex parameter *)
Definition grad_complex log_psi conn samples (ux uy vx vy : nat -> R) : cpx :=
  lsum cC (map (fun s => vjp_cc (cotangent log_psi conn samples (fst s) (snd s))
     (ux (snd s)) (uy (snd s)) (vx (snd s)) (vy (snd s))) samples).
Definition grad_complex_cr log_psi conn samples (ux uy : nat -> R) : cpx :=
  lsum cC (map (fun s => vjp_cr (cotangent log_psi conn samples (fst s) (snd s)) (ux (snd s)) (uy (snd s))) samples).
