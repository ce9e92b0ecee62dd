(** * The quantum geometric tensor *)
From Coq Require Import List Arith Bool Reals.
From Verif Require Import Base Rings ARNN_Model Estim_Model QGT_Model.
Import ListNotations.
Open Scope R_scope.

(** Average over samples. *)
Definition avg (ss : list sample) (f : sample -> cpx) : cpx :=
  rscal (/ INR (length ss)) (lsum cC (map f ss)).
Definition ravg (ss : list sample) (f : sample -> R) : R := fst (avg ss (fun s => (f s, 0))).

(** Derivative of log psi along a real coordinate, minus its average. *)
Definition delta (ss : list sample) (c : coord) (s : sample) : cpx := rsub cC (entry s c) (avg ss (fun s => entry s c)).
(** Change of log psi in direction [v]: the derivatives with respect to the real parts
    and, for complex parameters, the imaginary parts. *)
Definition delta_v (ls : leaves) (ss : list sample) (v : nat -> cpx) (s : sample) : cpx :=
  fsum cC (n_pars ls) (fun k =>
    radd cC (rscal (fst (v k)) (delta ss (k, false) s))
            (if flag ls k then rscal (snd (v k)) (delta ss (k, true) s) else (0, 0))).
(** (S + shift) v for S = Re <dO^dagger dO> in real coordinates. *)
Definition geometric (ls : leaves) (ss : list sample) (shift : R) (v : nat -> cpx) (k : nat) : cpx :=
  let g c := ravg ss (fun s => fst (rmul cC (rconj cC (delta ss c s)) (delta_v ls ss v s))) in
  (g (k, false) + shift * fst (v k), if flag ls k then g (k, true) + shift * snd (v k) else 0).

(** (<dO^dagger dO> + shift) v for complex derivatives O. *)
Definition geometric_holo (P : nat) (ss : list sample) (shift : R) (v : nat -> cpx) (k : nat) : cpx :=
  radd cC (fsum cC P (fun l =>
      rmul cC (avg ss (fun s => rmul cC (rconj cC (delta ss (k, false) s)) (delta ss (l, false) s))) (v l)))
    (rscal shift (v k)).

(** Log psi is real; log psi is holomorphic in parameters which are all complex (the
    derivative with respect to the imaginary part is i times that to the real part). *)
Definition real_valued (ss : list sample) : Prop := forall s, In s ss -> forall c, snd (entry s c) = 0.
Definition holomorphic (ls : leaves) (ss : list sample) : Prop :=
  (forall k, (k < n_pars ls)%nat -> flag ls k = true) /\
  forall s, In s ss -> forall k, jy s k = rmul cC (0, 1) (jx s k).

(** Every rank holds the same number of samples, at least one. *)
Definition even_ranks (ranks : list (list sample)) : Prop :=
  exists n, (0 < n)%nat /\ ranks <> [] /\ Forall (fun r => length r = n) ranks.

(** All leaves complex, or all real. *)
Definition homogeneous (ls : leaves) : Prop :=
  Forall (fun l => fst l = true) ls \/ Forall (fun l => fst l = false) ls.

(** Real inner product of two parameter vectors: the imaginary part counts for complex
    parameters. *)
Definition inner (ls : leaves) (u v : nat -> cpx) : R :=
  fst (fsum cC (n_pars ls) (fun k => (fst (u k) * fst (v k) + (if flag ls k then snd (u k) * snd (v k) else 0), 0))).
(** Hermitian inner product. *)
Definition hinner (P : nat) (u v : nat -> cpx) : cpx := fsum cC P (fun k => rmul cC (rconj cC (u k)) (v k)).

(** Mode "real" is for real log psi, "complex" for any log psi. *)
Definition ok_mode (m : mode) (ss : list sample) : Prop :=
  match m with MReal => real_valued ss | MComplex => True | MHolo => False end.

(** Squared norm of a column of the centred Jacobian, the diagonal of S. *)
Definition colnorm2 (ranks : list (list (coord -> R))) (c : coord) : R :=
  lsum rR (map (fun r => r c * r c) (concat ranks)).
