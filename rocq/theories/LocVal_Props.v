From Coq Require Import List Arith ZArith Reals Lia.
From Verif Require Import Base Rings ARNN_Model ToArray_Model Estim_Model Estim_Spec Estim_Proofs LocVal_Model LocVal_Spec LocVal_Proofs.
Import ListNotations.

(** The local values of a batch are <x|O|psi> / <x|psi>, one for every row. *)
Theorem C97_local_values : forall N O conn log_val liouvillian size v, describes N O conn -> proper size N v ->
  exists z, local_values liouvillian size conn (Pure log_val) v None None = Ok z /\
    Forall2 (is_local_value N O (psi_of log_val)) (rows v) z.
Proof. exact pure_main. Qed.
Print Assumptions C97_local_values.

(** With a density matrix, a Liouvillian acts on it as on a vector of the doubled space. *)
Theorem C97_liouvillian : forall N O conn log_val log_val2 size v, describes N O conn -> proper size N v ->
  exists z, local_values true size conn (Density log_val log_val2) v None None = Ok z /\
    Forall2 (is_local_value N O (psi_of log_val)) (rows v) z.
Proof. exact liouville_main. Qed.
Print Assumptions C97_liouvillian.

(** With a density matrix and another operator: <x|O rho|x> / <x|rho|x>. *)
Theorem C97_density : forall N O conn log_val log_rho size v, describes N O conn -> proper size N v -> rows v <> [] ->
  exists z, local_values false size conn (Density log_val log_rho) v None None = Ok z /\
    Forall2 (fun s z => rmul cC z (rho_of log_rho s s) = apply_op N O (fun t => rho_of log_rho t s) s) (rows v) z.
Proof. exact density_main. Qed.
Print Assumptions C97_density.

(** An empty batch is refused in that last case only. *)
Theorem C97_density_empty : forall conn log_val log_rho size v l out, ndim v = 2%nat -> cols v = size -> rows v = [] ->
  local_values false size conn (Density log_val log_rho) v l out = Err IndexError.
Proof. exact density_empty. Qed.
Print Assumptions C97_density_empty.

(** Arrays of another shape are refused, by both functions. *)
Theorem C97_shapes : forall liouvillian size conn m v l out, ndim v <> 2%nat \/ cols v <> size ->
  local_values liouvillian size conn m v l out = Err (if (ndim v =? 2)%nat then AssertionError else RuntimeError).
Proof. exact shapes_main. Qed.
Print Assumptions C97_shapes.
Theorem C97_der_shapes : forall junk size n_par conn log_val der_log v l d out f bs, ndim v <> 2%nat \/ cols v <> size ->
  der_local_values junk size n_par conn log_val der_log v l d out f bs
  = Err (if (ndim v =? 2)%nat then AssertionError else RuntimeError).
Proof. exact der_shapes_main. Qed.
Print Assumptions C97_der_shapes.

(** An array for the result does not change it. *)
Theorem C97_out : forall liouvillian size conn log_val v o z,
  local_values liouvillian size conn (Pure log_val) v None None = Ok z -> length o = length (rows v) ->
  local_values liouvillian size conn (Pure log_val) v None (Some o) = Ok z.
Proof. exact out_pure. Qed.
Print Assumptions C97_out.

(** The derivatives are those of the local values with respect to the parameters. *)
Theorem C97_derivative : forall junk size n_par N O conn (log_psi : R -> nat -> cpx) x der_log v bs,
  describes N O conn -> proper size N v -> (0 < bs)%Z ->
  exists D, der_local_values junk size n_par conn (log_psi x) der_log v None None None FTrue bs = Ok D /\
    length D = length (rows v) /\
    (forall i p, (i < length (rows v))%nat -> (p < n_par)%nat -> derivative_of log_psi x der_log p ->
     exists E : R -> cpx, (forall t, is_local_value N O (psi_of (log_psi t)) (nth i (rows v) 0%nat) (E t)) /\
       cderiv E x (nth p (nth i D []) (r0 cC))).
Proof. exact der_main. Qed.
Print Assumptions C97_derivative.

(** Not centred: the derivative of <x|O|psi>, divided by <x|psi>. *)
Theorem C97_not_centered : forall junk size n_par N O conn (log_psi : R -> nat -> cpx) x der_log v f bs,
  describes N O conn -> proper size N v -> (0 < bs)%Z -> f <> FTrue ->
  exists D, der_local_values junk size n_par conn (log_psi x) der_log v None None None f bs = Ok D /\
    length D = length (rows v) /\
    (forall i p, (i < length (rows v))%nat -> (p < n_par)%nat -> derivative_of log_psi x der_log p ->
     cderiv (fun t => apply_op N O (psi_of (log_psi t)) (nth i (rows v) 0%nat)) x
       (rmul cC (nth p (nth i D []) (r0 cC)) (psi_of (log_psi x) (nth i (rows v) 0%nat)))).
Proof. exact off_main. Qed.
Print Assumptions C97_not_centered.

(** The size of the batches does not matter. *)
Theorem C97_batch_size : forall junk junk' size n_par conn log_val der_log v l d out f bs bs', (0 < bs)%Z -> (0 < bs')%Z ->
  der_local_values junk size n_par conn log_val der_log v l d out f bs
  = der_local_values junk' size n_par conn log_val der_log v l d out f bs'.
Proof. exact batch_main. Qed.
Print Assumptions C97_batch_size.
Theorem C97_batch_zero : forall junk size n_par conn log_val der_log v l d out f, ndim v = 2%nat -> cols v = size ->
  der_local_values junk size n_par conn log_val der_log v l d out f 0 = Err ValueError.
Proof. exact batch_zero. Qed.
Print Assumptions C97_batch_zero.

(** A negative size is accepted, and the result is whatever the memory held. *)
Theorem C97_negative_batch_refuted : exists size n_par conn log_val der_log v f bs, ndim v = 2%nat /\ cols v = size /\
  forall z : cpx, exists junk D, der_local_values junk size n_par conn log_val der_log v None None None f bs = Ok D /\
    nth 0 (nth 0 D []) (r0 cC) = z.
Proof. exact negative_refuted. Qed.
Print Assumptions C97_negative_batch_refuted.

(** A true value which is not the constant True does not centre. *)
Theorem C97_truthy_refuted : exists size n_par conn log_val der_log v f, truth f = true /\ forall junk,
  der_local_values junk size n_par conn log_val der_log v None None None f 64
  <> der_local_values junk size n_par conn log_val der_log v None None None FTrue 64.
Proof. exact truthy_refuted. Qed.
Print Assumptions C97_truthy_refuted.

(** Concrete cases of the hypotheses. *)
Example C97_ex : describes 1 one_O one_conn /\ proper 1 1 one_batch /\ rows one_batch <> [] /\
  derivative_of (fun t _ => (t, 0)%R) 0 one_der 0.
Proof. split; [exact one_describes|]. split; [exact one_proper|]. split; [discriminate|apply one_derivative]. Qed.
Example C97_ex_2 : describes 2 wit_O wit_conn /\ proper 3 2 (Batch 2 3 [1; 0; 1]%nat) /\
  derivative_of wit_log 0 (fun s => [wit_g s]) 0.
Proof.
  split; [exact wit_describes|]. split; [repeat split; repeat constructor|]. intros s. apply wit_deriv.
Qed.
