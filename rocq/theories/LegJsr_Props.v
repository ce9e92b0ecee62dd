(** * C113: derivatives and stochastic reconfiguration of the legacy machines, jax version *)
From Coq Require Import String List Arith ZArith Lia Bool Reals Lra.
From Verif Require Import Base Rings ARNN_Model ToArray_Model Estim_Model LegSr_Model LegSr_Spec LegSr_Final LegJsr_Model LegJsr_Spec
  LegJsr_Proofs LegJsr_Update LegJsr_Final LegJsr_Cases.
Import ListNotations.
Open Scope R_scope.

(** ** derivatives *)
(** J^dagger w, or its conjugate, whichever way it is computed *)
Theorem C113_vjp : forall cplx n out_c rows vec_c w c,
  (out_c = false -> forall k, (k < n)%nat -> Forall (fun o : vec => snd (o k) = 0) rows) ->
  (any_complex cplx n = true -> out_c = true) ->
  exists x, vjp cplx n out_c rows vec_c w c = Ok x /\ forall k, (k < n)%nat ->
    (any_complex cplx n = true -> cplx k = true) ->
    x k = if c then dagger_times rows w k else rconj cC (dagger_times rows w k).
Proof. exact vjp_right. Qed.
Print Assumptions C113_vjp.
Theorem C113_vjp_mixed : forall cplx n rows vec_c w c, any_complex cplx n = true ->
  exists x, vjp cplx n true rows vec_c w c = Ok x /\ forall k, (k < n)%nat -> cplx k = false -> x k = (fst (dagger_times rows w k), 0).
Proof. exact vjp_mixed. Qed.
Print Assumptions C113_vjp_mixed.
Theorem C113_vjp_c_to_r : forall cplx n rows vec_c w c, any_complex cplx n = true ->
  vjp cplx n false rows vec_c w c = Err (if vec_c then TypeError else RuntimeError).
Proof. exact vjp_c_to_r. Qed.
Print Assumptions C113_vjp_c_to_r.
Theorem C113_grad : forall cplx n out_c (o : vec), (forall k, (k < n)%nat -> out_c = false -> snd (o k) = 0) ->
  match grad_of cplx n out_c o with
  | Ok g => (forall k, (k < n)%nat -> g k = o k) /\ ((forall k, (k < n)%nat -> cplx k = false) \/ (out_c = true /\ forall k, (k < n)%nat -> cplx k = true))
  | Err e => (exists k, (k < n)%nat /\ cplx k = true) /\
      (out_c = false /\ e = RuntimeError \/ out_c = true /\ e = TypeError /\ exists k, (k < n)%nat /\ cplx k = false)
  end.
Proof. exact grad_right. Qed.
Print Assumptions C113_grad.
Example C113_vjp_case :
  any_complex (fun _ => true) 2 = true /\
  dagger_times [fun k => (INR k, 1)] [(0, 1)] 1 = (1, 1).
Proof. split; [reflexivity|]. unfold dagger_times. cbn. f_equal; ring. Qed.

(** ** with stored derivatives *)
(** Every update of every run solves (S + shift) x = f, S the covariance of the samples of
    all ranks, whatever was computed before *)
Theorem C113_stored : forall cg m, exact_cg (m_n m) (cg (m_n m)) ->
  forall calls s, sr_machine s = Some m -> 0 < sr_shift s -> start_fits false m (sr_x0 s) -> good_calls calls ->
    exists xs s', updates cg false s calls = Ok (xs, s') /\
      Forall2 (fun c x => natural (m_n m) (has_complex m) (sr_shift s) (concat (fst c)) (snd c) x) calls xs.
Proof. exact run_explicit. Qed.
Print Assumptions C113_stored.

(** ** on the fly *)
(** The product with a vector is the one with the covariance matrix if and only if the mean
    derivative by every real parameter is real *)
Theorem C113_product_iff : forall n t ranks, balanced t ranks -> forall cplx shift,
  (forall v, typed n cplx v -> forall k, (k < n)%nat -> mat_vec n cplx shift ranks v k = shifted_product n cplx shift (concat ranks) v k)
  <-> (forall l, (l < n)%nat -> cplx l = false -> snd (mean_of (concat ranks) l) = 0).
Proof. exact onthefly_iff. Qed.
Print Assumptions C113_product_iff.
(** complex parameters *)
Theorem C113_onthefly_complex : forall cg m, exact_cg (m_n m) (cg (m_n m)) ->
  forall calls, (forall k, (k < m_n m)%nat -> m_cplx m k = true) ->
  forall s, sr_machine s = Some m -> 0 < sr_shift s -> start_fits true m (sr_x0 s) -> good_calls calls -> (0 < m_n m)%nat ->
    exists xs s', updates cg true s calls = Ok (xs, s') /\
      Forall2 (fun c x => natural (m_n m) true (sr_shift s) (concat (fst c)) (snd c) x) calls xs.
Proof. exact run_onthefly_complex. Qed.
Print Assumptions C113_onthefly_complex.
(** real parameters: the matrix is that of the derivatives plus the square of the mean
    phase gradient *)
Theorem C113_onthefly_real_partial : forall cg m, exact_cg (m_n m) (cg (m_n m)) ->
  forall calls, (forall k, (k < m_n m)%nat -> m_cplx m k = false) ->
  forall s, sr_machine s = Some m -> 0 < sr_shift s -> start_fits true m (sr_x0 s) -> good_calls calls ->
    exists xs s', updates cg true s calls = Ok (xs, s') /\
      Forall2 (fun c x => natural_phase (m_n m) (sr_shift s) (concat (fst c)) (snd c) x /\
        ((forall k, (k < m_n m)%nat -> snd (mean_of (concat (fst c)) k) = 0) -> natural (m_n m) false (sr_shift s) (concat (fst c)) (snd c) x)) calls xs.
Proof. exact run_onthefly_real. Qed.
Print Assumptions C113_onthefly_real_partial.
(** ... so the two ways do not give the same update, and the second one not the solution *)
Theorem C113_onthefly_refuted : exists m ranks f,
  balanced 1 ranks /\ has_complex m = false /\
  forall cg, exact_cg (m_n m) (cg (m_n m)) ->
  exists x y s1 s2, compute_update cg (SR (Some m) None 1) ranks f = Ok (x, s1) /\ compute_update_onthefly cg (SR (Some m) None 1) ranks f = Ok (y, s2) /\
    natural (m_n m) false 1 (concat ranks) f x /\ ~ natural (m_n m) false 1 (concat ranks) f y /\ x 0%nat <> y 0%nat.
Proof. exact phase_refuted. Qed.
Print Assumptions C113_onthefly_refuted.
(** With real and complex parameters the operator given to cg on the fly is not positive ... *)
Theorem C113_positive_refuted : exists m ranks v, balanced 1 ranks /\ typed (m_n m) (m_cplx m) v /\
  fst (fsum cC (m_n m) (fun i => rmul cC (rconj cC (v i)) (mat_vec (m_n m) (m_cplx m) (/ 100) ranks v i))) < 0.
Proof. exact mixed_refuted. Qed.
Print Assumptions C113_positive_refuted.
(** ... and the stored derivatives give a real parameter a complex update *)
Theorem C113_mixed_refuted : exists m ranks f,
  balanced 2 ranks /\ typed (m_n m) (m_cplx m) f /\ (0 < m_n m)%nat /\ m_cplx m 0%nat = false /\
  (exists x, natural (m_n m) true 1 (concat ranks) f x /\ snd (x 0%nat) <> 0) /\
  forall cg, exact_cg (m_n m) (cg (m_n m)) ->
  exists x s, compute_update cg (SR (Some m) None 1) ranks f = Ok (x, s) /\ natural (m_n m) true 1 (concat ranks) f x /\ snd (x 0%nat) <> 0.
Proof. exact mixed_update_refuted. Qed.
Print Assumptions C113_mixed_refuted.

(** ** use *)
Theorem C113_no_machine : forall cg s ranks f, sr_machine s = None ->
  compute_update cg s ranks f = Err ValueError /\ compute_update_onthefly cg s ranks f = Err AttributeError.
Proof. exact no_machine. Qed.
Print Assumptions C113_no_machine.
Theorem C113_modes_exclude : forall cg s ranks f x s',
  (compute_update cg s ranks f = Ok (x, s') -> forall ranks' f', compute_update_onthefly cg s' ranks' f' = Err ValueError) /\
  (compute_update_onthefly cg s ranks f = Ok (x, s') -> forall ranks' f', compute_update cg s' ranks' f' = Err ValueError).
Proof. exact modes_exclude. Qed.
Print Assumptions C113_modes_exclude.
(** Set up for a machine with another number of parameters, it fails ever after *)
Theorem C113_setup_refuted : forall cg s ranks f x s' m', compute_update cg s ranks f = Ok (x, s') ->
  (forall m, sr_machine s = Some m -> m_n m <> m_n m') -> forall ranks' f', compute_update cg (setup s' m') ranks' f' = Err ValueError.
Proof. exact other_machine. Qed.
Print Assumptions C113_setup_refuted.
Theorem C113_options : forall n_nodes mpi4jax m name shift it,
  (exists s, make n_nodes mpi4jax m name shift it = Ok s) <->
  ((n_nodes <= 1)%nat \/ mpi4jax = true) /\ (name = Some "cg"%string \/ (name = None /\ it = true)).
Proof. exact options_accept. Qed.
Print Assumptions C113_options.
(** Solvers that are to default to cg raise the warning; jaxcg is named and unknown *)
Theorem C113_options_refuted : forall m shift it,
  (forall name, In name ["gmres"; "minres"]%string -> make 1 true m (Some name) shift it = Err Exception_) /\
  make 1 true m (Some "jaxcg"%string) shift it = Err RuntimeError /\
  (forall name, In name ["ColPivHouseholder"; "QR"; "SVD"; "Cholesky"]%string -> make 1 true m (Some name) shift it = Err NotImplementedError).
Proof. exact options_errors. Qed.
Print Assumptions C113_options_refuted.

(** The hypotheses can be met: a solver, samples, an object *)
Example C113_case :
  exact_cg 1 (fun A b x0 => fst (krylov1 A b x0)) /\ balanced 1 phase_ranks /\ good_calls [(phase_ranks, fun _ => (2, 0))] /\
  start_fits true real1 None /\ make 1 false (Some real1) None 1 true = Ok (SR (Some real1) None 1) /\
  snd (mean_of (concat phase_ranks) 0) = 1.
Proof.
  split; [exact cg1_exact|]. split; [exact phase_balanced|]. split; [repeat constructor; exists 1%nat; exact phase_balanced|].
  split; [exact I|]. split; [reflexivity|]. cbn [phase_ranks concat app]. rewrite one_mean. reflexivity.
Qed.
