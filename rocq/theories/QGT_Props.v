From Coq Require Import List Arith Bool Reals Lra.
From Verif Require Import Base Rings ARNN_Model Estim_Model QGT_Model QGT_Spec QGT_Proofs.
Import ListNotations.
Open Scope R_scope.

(** C50.  However the samples are spread over the ranks, QGTOnTheFly multiplies with
    Re <dO^dagger dO> + shift in the real coordinates of the parameters, whatever the
    mixture of real and complex parameters. *)
Theorem C50_onthefly : forall ls ranks shift v k, even_ranks ranks -> (k < n_pars ls)%nat ->
  matmul_onthefly ls ranks shift v k = geometric ls (concat ranks) shift v k.
Proof. exact onthefly_main. Qed.
Print Assumptions C50_onthefly.

(** So does QGTJacobianPyTree in mode "complex", and in mode "real" for real log psi. *)
Theorem C50_pytree : forall m ls ranks shift v k,
  even_ranks ranks -> ok_mode m (concat ranks) -> (k < n_pars ls)%nat ->
  matmul_pytree m ls ranks shift v k = geometric ls (concat ranks) shift v k.
Proof. exact pytree_main. Qed.
Print Assumptions C50_pytree.

(** And QGTJacobianDense, when the parameters are all real or all complex. *)
Theorem C50_dense_partial : forall m ls ranks shift v,
  even_ranks ranks -> ok_mode m (concat ranks) -> homogeneous ls ->
  exists y, matmul_dense m ls ranks shift v = Ok y /\
    forall k, (k < n_pars ls)%nat -> y k = geometric ls (concat ranks) shift v k.
Proof. exact dense_main. Qed.
Print Assumptions C50_dense_partial.

(** With real and complex parameters QGTJacobianDense raises TypeError for every vector. *)
Theorem C50_dense_mixed_refuted : forall m ls ranks shift v, m <> MHolo ->
  (exists l, In l ls /\ fst l = true) -> (exists k, (k < n_pars ls)%nat /\ flag ls k = false) ->
  matmul_dense m ls ranks shift v = Err TypeError.
Proof. exact dense_mixed. Qed.
Print Assumptions C50_dense_mixed_refuted.

(** For holomorphic log psi the three multiply with the complex matrix
    <dO^dagger dO> + shift. *)
Theorem C50_holomorphic : forall ls ranks shift v, even_ranks ranks -> holomorphic ls (concat ranks) ->
  exists y, matmul_dense MHolo ls ranks shift v = Ok y /\
    forall k, (k < n_pars ls)%nat ->
      y k = geometric_holo (n_pars ls) (concat ranks) shift v k /\
      matmul_pytree MHolo ls ranks shift v k = geometric_holo (n_pars ls) (concat ranks) shift v k /\
      matmul_onthefly ls ranks shift v k = geometric_holo (n_pars ls) (concat ranks) shift v k.
Proof. exact holo_main. Qed.
Print Assumptions C50_holomorphic.

(** The matrix is symmetric and bounded below by the shift; positive definite for a
    positive shift. *)
Theorem C50_symmetric : forall ls ss shift u v,
  inner ls u (geometric ls ss shift v) = inner ls v (geometric ls ss shift u).
Proof. exact symmetric_main. Qed.
Print Assumptions C50_symmetric.
Theorem C50_positive : forall ls ss shift v, shift * inner ls v v <= inner ls v (geometric ls ss shift v).
Proof. exact positive_main. Qed.
Print Assumptions C50_positive.
Theorem C50_definite : forall ls ss shift v k, 0 < shift -> (k < n_pars ls)%nat ->
  (fst (v k) <> 0 \/ (flag ls k = true /\ snd (v k) <> 0)) -> 0 < inner ls v (geometric ls ss shift v).
Proof. exact definite_main. Qed.
Print Assumptions C50_definite.
Theorem C50_hermitian : forall P ss shift u v,
  hinner P u (geometric_holo P ss shift v) = rconj cC (hinner P v (geometric_holo P ss shift u)).
Proof. exact hermitian_main. Qed.
Print Assumptions C50_hermitian.
Theorem C50_holomorphic_positive : forall P ss shift v,
  snd (hinner P v (geometric_holo P ss shift v)) = 0 /\
  shift * fst (hinner P v v) <= fst (hinner P v (geometric_holo P ss shift v)).
Proof. exact hpositive_main. Qed.
Print Assumptions C50_holomorphic_positive.

(** The dense matrices are the matrices of the products. *)
Theorem C50_to_dense_jacobian : forall leaves ranks shift v c, NoDup (concat leaves) -> In c (concat leaves) ->
  mat_vec_pytree rR coord leaves ranks shift v c
  = lsum rR (map (fun d => to_dense_jac rR coord ranks shift
      (fun c d => (fst c =? fst d)%nat && Bool.eqb (snd c) (snd d))%bool c d * v d) (concat leaves)).
Proof. exact dense_matrix_real. Qed.
Print Assumptions C50_to_dense_jacobian.
Theorem C50_to_dense_onthefly_real : forall ls ranks shift k l, even_ranks ranks ->
  Forall (fun b => fst b = false) ls -> (k < n_pars ls)%nat -> (l < n_pars ls)%nat ->
  to_dense_onthefly ls ranks shift false k l
  = (ravg (concat ranks) (fun s => fst (rmul cC (rconj cC (delta (concat ranks) (k, false) s)) (delta (concat ranks) (l, false) s)))
      + (if (k =? l)%nat then shift else 0), 0).
Proof. exact onthefly_dense_real. Qed.
Print Assumptions C50_to_dense_onthefly_real.
Theorem C50_to_dense_onthefly_holomorphic : forall ls ranks shift k l, even_ranks ranks ->
  holomorphic ls (concat ranks) -> (k < n_pars ls)%nat -> (l < n_pars ls)%nat ->
  to_dense_onthefly ls ranks shift true k l
  = radd cC (avg (concat ranks) (fun s => rmul cC (rconj cC (delta (concat ranks) (k, false) s)) (delta (concat ranks) (l, false) s)))
      (if (k =? l)%nat then (shift, 0) else (0, 0)).
Proof. exact onthefly_dense_holo. Qed.
Print Assumptions C50_to_dense_onthefly_holomorphic.

(** With rescale_shift the shift is multiplied with the diagonal of S, in both
    Jacobian implementations, as long as no column of the Jacobian vanishes. *)
Theorem C50_rescaled : forall leaves ranks shift v c,
  (forall d, In d (c :: concat leaves) -> colnorm2 ranks d <> 0) ->
  scaled_pytree rR coord leaves (rescale rR coord sqrt Rdiv ranks) shift v c
    = mat_vec_pytree rR coord leaves ranks 0 v c + shift * colnorm2 ranks c * v c /\
  scaled_dense rR coord (concat leaves) (rescale rR coord sqrt Rdiv ranks) shift v c
    = mat_vec_pytree rR coord leaves ranks 0 v c + shift * colnorm2 ranks c * v c.
Proof. exact rescaled_main. Qed.
Print Assumptions C50_rescaled.
Theorem C50_rescaled_to_dense : forall ranks shift c d, colnorm2 ranks c <> 0 -> colnorm2 ranks d <> 0 ->
  scaled_to_dense rR coord (rescale rR coord sqrt Rdiv ranks) shift
    (fun c d => (fst c =? fst d)%nat && Bool.eqb (snd c) (snd d))%bool c d
  = lsum rR (map (fun r => r c * r d) (concat ranks))
    + shift * (if ((fst c =? fst d)%nat && Bool.eqb (snd c) (snd d))%bool then colnorm2 ranks c else 0).
Proof. exact rescaled_dense. Qed.
Print Assumptions C50_rescaled_to_dense.

(** Two ranks with a sample each; log psi = p * s for a complex parameter p and s = 1, 3. *)
Definition ex_sample (x : R) : sample := Sample (fun _ => (x, 0)) (fun _ => (0, x)).
Example even_inhabited : even_ranks [[ex_sample 1]; [ex_sample 3]].
Proof. exists 1%nat. split; [auto|]. split; [discriminate|]. repeat constructor. Qed.
Example holomorphic_inhabited : holomorphic [(true, 1%nat)] (concat [[ex_sample 1]; [ex_sample 3]]).
Proof.
  split.
  - intros k Hk. cbn [n_pars snd] in Hk. destruct k; [reflexivity|]. exfalso. revert Hk. cbn. intros Hk. inversion Hk. inversion H0.
  - intros s [<-|[<-|[]]] k; cbn [ex_sample jx jy cC rmul]; apply injective_projections; cbn [fst snd]; ring.
Qed.
Example homogeneous_inhabited : homogeneous [(true, 1%nat)].
Proof. left. repeat constructor. Qed.
(** The variance of s is 1: S = 1. *)
Example geometric_value : forall v,
  geometric_holo 1 (concat [[ex_sample 1]; [ex_sample 3]]) 0 v 0 = v 0%nat.
Proof.
  intros v. unfold geometric_holo, avg, delta, avg, entry, ex_sample, rscal.
  cbn [fsum map concat app lsum length jx jy fst snd INR cC radd rmul rsub rconj r0].
  apply injective_projections; cbn [fst snd]; field.
Qed.
Example mixed_inhabited : (exists l, In l [(false, 1%nat); (true, 1%nat)] /\ fst l = true) /\
  (exists k, (k < n_pars [(false, 1%nat); (true, 1%nat)])%nat /\ flag [(false, 1%nat); (true, 1%nat)] k = false).
Proof.
  split; [exists (true, 1%nat); cbn; auto|]. exists 0%nat. split; [cbn; auto|reflexivity].
Qed.
(** A Jacobian of two samples without a vanishing column. *)
Example rescaled_inhabited : colnorm2 [[fun _ => 1]; [fun _ => -1]] (O, false) <> 0.
Proof. unfold colnorm2. cbn [concat app map lsum rR radd r0]. apply Rgt_not_eq. nra. Qed.
