(** * What the derivatives and the natural gradient are *)
From Coq Require Import List Arith ZArith Bool Reals.
From Verif Require Import Base Rings ARNN_Model ToArray_Model Estim_Model Balance_Spec LegQsr_Spec LegSr_Model LegSr_Spec.
Import ListNotations.
Open Scope R_scope.

(** The conjugate transpose of the derivatives times a vector *)
Definition dagger_times (rows : list vec) (w : list cpx) (k : nat) : cpx :=
  lsum cC (map (fun p => rmul cC (rconj cC (snd p k)) (fst p)) (combine w rows)).
(** A vector of the types of the parameters: real where they are *)
Definition typed (n : nat) (cplx : nat -> bool) (v : vec) : Prop := forall k, (k < n)%nat -> cplx k = false -> snd (v k) = 0.
(** Mean of a derivative over all samples *)
Definition mean_of (samples : list vec) (k : nat) : cpx := cavg (fun o => o k) samples.
(** The covariance matrix times a vector, plus the shift; the real part where the parameter
    is real *)
Definition shifted_product (n : nat) (cplx : nat -> bool) (shift : R) (samples : list vec) (v : vec) (i : nat) : cpx :=
  let y := radd cC (fsum cC n (fun j => rmul cC (cov samples i j) (v j))) (rscal shift (v i)) in
  if cplx i then y else (fst y, 0).
(** Conjugate gradients: finds the solution for a hermitian positive matrix, the real one if
    everything is real *)
Definition herm (n : nat) (M : mat) : Prop := forall i j, (i < n)%nat -> (j < n)%nat -> M i j = rconj cC (M j i).
Definition pos_def (n : nat) (M : mat) : Prop := exists e, 0 < e /\ forall v,
  e * fsum rR n (fun i => cnorm2 (v i)) <= fst (fsum cC n (fun i => rmul cC (rconj cC (v i)) (fsum cC n (fun j => rmul cC (M i j) (v j))))).
Definition exact_cg (n : nat) (cg : (vec -> vec) -> vec -> vec -> vec) : Prop :=
  (forall A M b x0, (forall v i, (i < n)%nat -> A v i = fsum cC n (fun j => rmul cC (M i j) (v j))) ->
     herm n M -> pos_def n M -> solves n M b (cg A b x0)) /\
  (forall A M b x0, (forall v i, real_vec n v -> (i < n)%nat -> A v i = fsum cC n (fun j => rmul cC (M i j) (v j))) ->
     (forall i j, (i < n)%nat -> (j < n)%nat -> snd (M i j) = 0) -> herm n M -> pos_def n M -> real_vec n b -> real_vec n x0 ->
     real_vec n (cg A b x0) /\ solves n M b (cg A b x0)).
(** The equation with the square of the mean phase gradient added to the matrix *)
Definition natural_phase (n : nat) (shift : R) (samples : list vec) (f x : vec) : Prop :=
  forall i, (i < n)%nat -> snd (x i) = 0 /\
    fsum rR n (fun j => (fst (cov samples i j) + snd (mean_of samples i) * snd (mean_of samples j)) * fst (x j)) + shift * fst (x i) = fst (f i).
