(** * What stochastic reconfiguration is meant to compute *)
From Coq Require Import List Arith ZArith Bool Reals.
From Verif Require Import Base Rings ARNN_Model ToArray_Model Estim_Model Balance_Spec LegQsr_Spec LegSr_Model.
Import ListNotations.
Open Scope R_scope.

(** Averages over samples, and the covariance matrix of the log-derivatives *)
Definition cavg (f : vec -> cpx) (samples : list vec) : cpx :=
  (average (fun o => fst (f o)) samples, average (fun o => snd (f o)) samples).
Definition cov (samples : list vec) (i j : nat) : cpx :=
  cavg (fun o => rmul cC (rconj cC (rsub cC (o i) (cavg (fun o => o i) samples))) (rsub cC (o j) (cavg (fun o => o j) samples))) samples.

(** [M x = b] *)
Definition solves (n : nat) (M : mat) (b x : vec) : Prop :=
  forall i, (i < n)%nat -> fsum cC n (fun j => rmul cC (M i j) (x j)) = b i.
(** (S + shift) x = f; for real parameters with the real parts, and x real *)
Definition natural (n : nat) (complex_pars : bool) (shift : R) (samples : list vec) (f x : vec) : Prop :=
  forall i, (i < n)%nat ->
    if complex_pars
    then radd cC (fsum cC n (fun j => rmul cC (cov samples i j) (x j))) (rscal shift (x i)) = f i
    else snd (x i) = 0 /\ fsum rR n (fun j => fst (cov samples i j) * fst (x j)) + shift * fst (x i) = fst (f i).
(** ... and with the shift proportional to the diagonal, as the scale-invariant
    regularisation of Becca and Sorella *)
Definition natural_scaled (n : nat) (shift : R) (samples : list vec) (f x : vec) : Prop :=
  forall i, (i < n)%nat ->
    radd cC (fsum cC n (fun j => rmul cC (cov samples i j) (x j))) (rscal (shift * fst (cov samples i i)) (x i)) = f i.

(** Solvers that find a solution if there is one.  An iterative one only sees products with
    vectors, real ones if everything is real. *)
Definition exact_dense (n : nat) (dense : mat -> vec -> vec) : Prop :=
  forall M b, (exists x, solves n M b x) -> solves n M b (dense M b).
Definition real_vec (n : nat) (v : vec) : Prop := forall i, (i < n)%nat -> snd (v i) = 0.
Definition exact_krylov (n : nat) (krylov : (vec -> vec) -> vec -> vec -> vec * Z) : Prop :=
  (forall A M b x0, (forall v i, (i < n)%nat -> A v i = fsum cC n (fun j => rmul cC (M i j) (v j))) ->
     (exists x, solves n M b x) -> (0 <= snd (krylov A b x0))%Z /\ solves n M b (fst (krylov A b x0))) /\
  (forall A M b x0, (forall v i, real_vec n v -> (i < n)%nat -> A v i = fsum cC n (fun j => rmul cC (M i j) (v j))) ->
     real_vec n b -> (exists x, real_vec n x /\ solves n M b x) ->
     (0 <= snd (krylov A b x0))%Z /\ real_vec n (fst (krylov A b x0)) /\ solves n M b (fst (krylov A b x0))).
(** Every rank has [t] samples *)
Definition balanced (t : nat) (ranks : list (list vec)) : Prop :=
  (0 < t)%nat /\ ranks <> [] /\ Forall (fun r => length r = t) ranks.
