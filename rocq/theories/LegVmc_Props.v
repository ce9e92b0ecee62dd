(** * C104: gradients of the legacy drivers *)
From Coq Require Import List Arith ZArith Reals.
From Verif Require Import Base Rings ARNN_Model ToArray_Model Estim_Model Estim_Spec Balance_Spec
  LegQsr_Model LegQsr_Spec LegQsr_Nll LegVmc_Model LegVmc_Spec LegVmc_Final LegVmc_Examples.
Import ListNotations.
Open Scope R_scope.

(** Vmc, whatever was sampled: the energy is the mean of <s|H|psi>/<s|psi> over the samples of
    all ranks; the direction is the covariance of the logarithmic derivatives with it, real
    for real parameters; with SR this covariance, and the logarithmic derivatives (or the
    samples) of every rank, are handed over. *)
Theorem C104_vmc_step : forall N H conn m n batch ranks complex_parameters sr,
  describes N H conn -> (0 < n)%nat -> (0 < batch)%nat -> Forall (shape N n batch) ranks -> ranks <> [] ->
  let d := map (fun k => covariance (fun s => entry (q_der m s) k) (local_of N H (q_log m)) (all_of ranks)) (seq 0 (q_npar m)) in
  vmc_step m complex_parameters conn (length ranks * n * batch) sr ranks
  = StepOut (caverage (local_of N H (q_log m)) (all_of ranks))
      match sr with
      | NoSR => if complex_parameters then d else map (fun z => (fst z, 0)) d
      | FromJacobian solve => solve (map (fun r => map (q_der m) (concat r)) ranks) d
      | OnTheFly solve => solve (map (@concat nat) ranks) d
      end.
Proof. exact (fun N H conn m n batch ranks c sr HC Hn Hb F Hr => vmc_grads N H conn m n batch HC Hn Hb ranks sr c F Hr). Qed.
Print Assumptions C104_vmc_step.

(** With frequencies equal to the Born probabilities, twice the direction is the gradient of
    the energy. *)
Theorem C104_vmc_exact : forall N H conn m n batch ranks complex_parameters v log_psi t0,
  (0 < N)%nat -> describes N H conn -> hermitian N H -> (0 < n)%nat -> (0 < batch)%nat ->
  Forall (shape N n batch) ranks -> ranks <> [] ->
  (forall s, (s < N)%nat -> fraction (all_of ranks) s = born N (psi_of (q_log m)) s) ->
  moves N m v log_psi t0 -> direction complex_parameters v ->
  derivable_pt_lim (fun t => fst (expectation N H (psi_of (log_psi t)))) t0
    (2 * slope (q_npar m) (o_dp (vmc_step m complex_parameters conn (length ranks * n * batch) NoSR ranks)) v).
Proof. exact (fun N H conn m n batch ranks c v lp t0 HN HC HH Hn Hb F Hr Hf HM HD => vmc_exact N H conn m n batch HC Hn Hb v lp t0 c HN HM HD ranks HH F Hr Hf). Qed.
Print Assumptions C104_vmc_exact.

(** With random samples from the Born distribution, any two of them independent, the mean of
    the direction is (T - 1) / (2 T) times the gradient of the energy, T the number of samples. *)
Theorem C104_vmc_mean : forall N H conn m n batch nodes (O : list (R * list batches)) complex_parameters v log_psi t0,
  (0 < N)%nat -> describes N H conn -> hermitian N H -> (0 < n)%nat -> (0 < batch)%nat -> (0 < nodes)%nat ->
  Forall (fun o => length (snd o) = nodes /\ Forall (shape N n batch) (snd o)) O ->
  independent N (nodes * n * batch) (q_log m) O -> (1 < nodes * n * batch)%nat ->
  moves N m v log_psi t0 -> direction complex_parameters v ->
  derivable_pt_lim (fun t => fst (expectation N H (psi_of (log_psi t)))) t0
    (2 * (INR (nodes * n * batch) / (INR (nodes * n * batch) - 1))
     * slope (q_npar m) (mean_of_vectors (q_npar m) O
         (fun ranks => o_dp (vmc_step m complex_parameters conn (nodes * n * batch) NoSR ranks))) v).
Proof. exact (fun N H conn m n batch nodes O c v lp t0 HN HC HH Hn Hb Hk HS HI Ht HM HD => vmc_unbiased N H conn m n batch HC Hn Hb v lp t0 c HN HM HD nodes O Hk HS HI HH Ht). Qed.
Print Assumptions C104_vmc_mean.

(** SteadyState, whatever was sampled. *)
Theorem C104_steady_step : forall N L conn m n batch ranks complex_parameters sr,
  describes N L conn -> (0 < n)%nat -> (0 < batch)%nat -> Forall (shape N n batch) ranks ->
  let l := all_of ranks in
  let mean_square := (average (fun s => cnorm2 (local_of N L (q_log m) s)) l, 0) in
  let d := map (fun k => rsub cC
      (caverage (fun s => rmul cC (rconj cC (local_derivative N L m k s)) (local_of N L (q_log m) s)) l)
      (rmul cC (rconj cC (caverage (fun s => entry (q_der m s) k) l)) mean_square)) (seq 0 (q_npar m)) in
  steady_step m complex_parameters conn sr ranks
  = StepOut mean_square
      match sr with
      | None => if complex_parameters then d else map (fun z => (fst z, 0)) d
      | Some solve => solve (map (fun r => map (fun s => map (fun k =>
          rsub cC (entry (q_der m s) k) (caverage (fun s => entry (q_der m s) k) l)) (seq 0 (q_npar m))) (concat r)) ranks) d
      end.
Proof. exact (fun N L conn m n batch ranks c sr HC Hn Hb F => steady_main N L conn m n batch HC Hn Hb ranks sr c F). Qed.
Print Assumptions C104_steady_step.
Theorem C104_steady_exact : forall N L conn m n batch ranks complex_parameters v log_psi t0,
  (0 < N)%nat -> describes N L conn -> (0 < n)%nat -> (0 < batch)%nat -> Forall (shape N n batch) ranks ->
  (forall s, (s < N)%nat -> fraction (all_of ranks) s = born N (psi_of (q_log m)) s) ->
  moves N m v log_psi t0 -> direction complex_parameters v ->
  derivable_pt_lim (fun t => fst (expectation N (dagger_times N L) (psi_of (log_psi t)))) t0
    (2 * slope (q_npar m) (o_dp (steady_step m complex_parameters conn None ranks)) v).
Proof. exact (fun N L conn m n batch ranks c v lp t0 HN HC Hn Hb F Hf HM HD => steady_exact N L conn m n batch HC Hn Hb v lp t0 c HN HM HD ranks F Hf). Qed.
Print Assumptions C104_steady_exact.
(** Random samples: twice the mean of the direction misses the gradient of <L^dagger L> by the
    covariance of the change of log |rho| with the squared local values, over the number of
    samples. *)
Theorem C104_steady_mean : forall N L conn m n batch nodes (O : list (R * list batches)) complex_parameters v log_psi t0,
  (0 < N)%nat -> describes N L conn -> (0 < n)%nat -> (0 < batch)%nat -> (0 < nodes)%nat ->
  Forall (fun o => length (snd o) = nodes /\ Forall (shape N n batch) (snd o)) O ->
  independent N (nodes * n * batch) (q_log m) O ->
  moves N m v log_psi t0 -> direction complex_parameters v ->
  let B := born_mean N (q_log m) in
  let change := fun s => fst (velocity m v s) in
  let square := fun s => cnorm2 (local_of N L (q_log m) s) in
  derivable_pt_lim (fun t => fst (expectation N (dagger_times N L) (psi_of (log_psi t)))) t0
    (2 * (slope (q_npar m) (mean_of_vectors (q_npar m) O (fun ranks => o_dp (steady_step m complex_parameters conn None ranks))) v
          + (B (fun s => change s * square s) - B change * B square) / INR (nodes * n * batch))).
Proof. exact (fun N L conn m n batch nodes O c v lp t0 HN HC Hn Hb Hk HS HI HM HD => steady_bias N L conn m n batch HC Hn Hb v lp t0 c HN HM HD nodes O Hk HS HI). Qed.
Print Assumptions C104_steady_mean.

(** estimate_expectations.  Full statement: the gradient is the covariance of the logarithmic
    derivatives with the local values.  What holds: the estimate of the value; and the sum of
    the gradients that the ranks return is the covariance times the number of chains of all
    ranks. *)
Theorem C104_estimate_partial : forall N H conn m n batch ranks,
  describes N H conn -> (0 < n)%nat -> (0 < batch)%nat -> Forall (shape N n batch) ranks -> ranks <> [] ->
  fst (estimate_expectations m conn n ranks) = caverage (local_of N H (q_log m)) (all_of ranks) /\
  sum_ranks (q_npar m) (snd (estimate_expectations m conn n ranks))
  = map (fun k => rscal (INR (length ranks * batch))
      (covariance (fun s => entry (q_der m s) k) (local_of N H (q_log m)) (all_of ranks))) (seq 0 (q_npar m)).
Proof. exact estimate_main. Qed.
Print Assumptions C104_estimate_partial.
Theorem C104_estimate_refuted : exists N H conn m n batch samples,
  describes N H conn /\ shape N n batch samples /\
  snd (estimate_expectations m conn n [samples]) = [[(1 / 2, 0)]] /\
  covariance (fun s => entry (q_der m s) 0) (local_of N H (q_log m)) (concat samples) = (1 / 4, 0).
Proof. exact (ex_intro _ 2%nat (ex_intro _ two_O (ex_intro _ two_conn (ex_intro _ ex_mach (ex_intro _ 1%nat (ex_intro _ 2%nat (ex_intro _ [[0%nat; 1%nat]] (conj (two_describes 2) (conj two_shape two_values))))))))). Qed.
Print Assumptions C104_estimate_refuted.
(** The requested number of sweeps is discarded, except that asking for none discards a tenth. *)
Theorem C104_discard_partial : forall n d, d <> 0%Z -> estimate_discard n (Some d) = d /\ estimate_discard n None = (n / 10)%Z.
Proof. exact discard_main. Qed.
Print Assumptions C104_discard_partial.
Theorem C104_discard_refuted : exists n d, estimate_discard n (Some d) <> d.
Proof. exact discard_zero. Qed.
Print Assumptions C104_discard_refuted.

(** Numbers of samples. *)
Theorem C104_sizes : forall n_samples n_discard batch nodes z, (0 < batch)%Z -> (0 < nodes)%Z ->
  vmc_sizes n_samples n_discard batch nodes = Ok z ->
  (v_total z = v_node z * batch * nodes)%Z /\ (n_samples <= v_total z < n_samples + batch * nodes)%Z /\
  v_discard z = match n_discard with Some d => d | None => (v_node z * batch / 10)%Z end.
Proof. exact vmc_sizes_main. Qed.
Print Assumptions C104_sizes.
Theorem C104_sizes_errors : forall n_samples n_discard batch nodes,
  vmc_sizes n_samples n_discard batch nodes = Err ValueError <->
  (n_samples <= 0)%Z \/ (exists d, n_discard = Some d /\ (d < 0)%Z).
Proof. exact vmc_sizes_errors. Qed.
Print Assumptions C104_sizes_errors.
(** Observables of SteadyState.  Full statement: they use their own sampler with its own
    numbers, by default those of the driver.  What holds: with an explicit sampler and number
    of samples these are used, but the sweeps discarded are those of the driver. *)
Theorem C104_observables_partial : forall n_samples n_discard batch nodes b_obs n_obs d_obs z zo,
  vmc_sizes n_samples n_discard batch nodes = Ok z -> vmc_sizes n_obs d_obs b_obs nodes = Ok zo ->
  steady_sizes n_samples n_discard batch nodes (Some (b_obs, Some n_obs, d_obs)) = Ok (z, Some zo) /\
  diagonal_sweeps (z, Some zo) = Ok (v_discard z, v_node zo).
Proof. exact steady_sizes_main. Qed.
Print Assumptions C104_observables_partial.
(** A sampler for the observables without a number of samples cannot be used, and without
    such a sampler no observable can be estimated. *)
Theorem C104_observables_refuted : forall n_samples n_discard batch nodes b_obs d_obs z,
  vmc_sizes n_samples n_discard batch nodes = Ok z ->
  steady_sizes n_samples n_discard batch nodes (Some (b_obs, None, d_obs)) = Err TypeError /\
  steady_sizes n_samples n_discard batch nodes None = Ok (z, None) /\ diagonal_sweeps (z, None) = Err AttributeError.
Proof. exact steady_default. Qed.
Print Assumptions C104_observables_refuted.

(** ** The hypotheses can be met *)
Example C104_samples_example : describes 2 two_O two_conn /\ hermitian 2 two_O /\ Forall (shape 2 2 2) ex_samples /\
  all_of ex_samples = [0; 1; 1; 1; 0; 0; 1; 0]%nat /\
  (forall s, (s < 2)%nat -> fraction (all_of ex_samples) s = born 2 (psi_of (q_log ex_mach)) s) /\
  moves 2 ex_mach (fun _ => (1, 0)) ex_path 0 /\ direction false (fun _ => (1, 0)).
Proof. exact (conj (two_describes 2) (conj (two_hermitian 2) (conj (proj1 ex_shape) (conj (proj2 ex_shape) (conj ex_exact (conj ex_moves (or_intror (fun _ => eq_refl)))))))). Qed.
Example C104_random_example : Forall (fun o => length (snd o) = 1%nat /\ Forall (shape 2 2 1) (snd o)) ex_outcomes /\
  independent 2 2 (q_log ex_mach) ex_outcomes.
Proof. exact (conj ex_outcomes_shape ex_independent). Qed.
Example C104_sizes_example : vmc_sizes 1000 None 16 3 = Ok (VSize 21 1008 33) /\
  steady_sizes 1000 None 16 3 (Some (4%Z, Some 100%Z, Some 7%Z)) = Ok (VSize 21 1008 33, Some (VSize 9 108 7)) /\
  diagonal_sweeps (VSize 21 1008 33, Some (VSize 9 108 7)) = Ok (33%Z, 9%Z).
Proof. exact (conj eq_refl (conj eq_refl eq_refl)). Qed.
