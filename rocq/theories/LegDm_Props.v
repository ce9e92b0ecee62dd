(** * C108: density matrices of the legacy machines *)
From Coq Require Import List Arith ZArith Bool Reals.
From Verif Require Import Base Rings ARNN_Model ToArray_Model Estim_Model Ansatz_Model Ansatz_Spec LegRbm_Model LegRbm_Spec LegDm_Model LegDm_Spec LegDm_Final LegDm_Examples.
Import ListNotations.
Open Scope R_scope.

(** to_matrix: the entries times the trace are the values of the machine, the trace is one,
    whatever [normalize] *)
Theorem C108_matrix : forall m states nrm M, to_matrix true m states nrm = Ok M -> trace_of m states <> r0 cC ->
  length M = length states /\ Forall (fun r => length r = length states) M /\
  (forall i j, (i < length states)%nat -> (j < length states)%nat ->
     rmul cC (trace_of m states) (nth j (nth i M []) (r0 cC)) = rho_of m (at_pos states i) (at_pos states j)) /\
  lsum cC (map (fun i => nth i (nth i M []) (r0 cC)) (seq 0 (length states))) = r1 cC.
Proof. exact LegDm_Proofs.matrix_main. Qed.
Print Assumptions C108_matrix.
Theorem C108_matrix_exists : forall m states nrm q qs, concat states = q :: qs -> exists M, to_matrix true m states nrm = Ok M.
Proof. exact matrix_states. Qed.
Print Assumptions C108_matrix_exists.
(** Of a machine that is hermitian and positive on the basis it is a density matrix *)
Theorem C108_density_matrix : forall (ok : config -> Prop) m states nrm M,
  Forall ok states -> hermitian ok (rho_of m) -> positive_semidefinite ok (rho_of m) ->
  trace_of m states <> r0 cC -> to_matrix true m states nrm = Ok M ->
  let k := fun i j => nth j (nth i M []) (r0 cC) in
  hermitian (fun i => (i < length states)%nat) k /\ positive_semidefinite (fun i => (i < length states)%nat) k /\
  lsum cC (map (fun i => k i i) (seq 0 (length states))) = r1 cC.
Proof. exact matrix_density. Qed.
Print Assumptions C108_density_matrix.
(** to_array: with "trace" the same entries row after row, with True or "L2" of Euclidean
    norm one, with False smaller by the exponential of the greatest quantum number *)
Theorem C108_array_trace : forall m states v i j, to_array true m states NTrace = Ok v -> trace_of m states <> r0 cC ->
  (i < length states)%nat -> (j < length states)%nat ->
  rmul cC (trace_of m states) (nth (i * length states + j) v (r0 cC)) = rho_of m (at_pos states i) (at_pos states j).
Proof. exact LegDm_Proofs.array_trace_main. Qed.
Print Assumptions C108_array_trace.
Theorem C108_array_length : forall m states nrm v, to_array true m states nrm = Ok v -> length v = (length states * length states)%nat.
Proof. exact LegDm_Proofs.array_len. Qed.
Print Assumptions C108_array_length.
Theorem C108_array_norm_partial : forall m states nrm v, (nrm = NTrue \/ nrm = NL2) -> to_array true m states nrm = Ok v ->
  (exists s, In s (entries_of m states) /\ amplitude s <> r0 cC) ->
  fold_right Rplus 0 (map cnorm2 v) = 1 /\
  exists c, 0 < c /\ forall i j, (i < length states)%nat -> (j < length states)%nat ->
    nth (i * length states + j) v (r0 cC) = rscal c (rho_of m (at_pos states i) (at_pos states j)).
Proof. exact LegDm_Proofs.array_norm. Qed.
Print Assumptions C108_array_norm_partial.
Theorem C108_array_bare_partial : forall m states v, to_array true m states NFalse = Ok v ->
  exists x, In x (concat states) /\ (forall y, In y (concat states) -> y <= x) /\
  forall i j, (i < length states)%nat -> (j < length states)%nat ->
    nth (i * length states + j) v (r0 cC) = rscal (exp (- x)) (rho_of m (at_pos states i) (at_pos states j)).
Proof. exact LegDm_Proofs.array_bare. Qed.
Print Assumptions C108_array_bare_partial.
(** to_array(normalize=True) is documented to have trace one *)
Theorem C108_array_true_refuted : exists m states v, to_array true m states NTrue = Ok v /\ trace_of m states <> r0 cC /\
  lsum cC (map (fun k => nth (k * length states + k) v (r0 cC)) (seq 0 (length states))) <> r1 cC.
Proof. exact true_refuted. Qed.
Print Assumptions C108_array_true_refuted.
(** normalize=False does not give the values of the machine, in to_array nor in to_matrix *)
Theorem C108_array_false_refuted : exists m states v, to_array true m states NFalse = Ok v /\
  ~ forall i j, (i < length states)%nat -> (j < length states)%nat -> nth (i * length states + j) v (r0 cC) = rho_of m (at_pos states i) (at_pos states j).
Proof. exact bare_refuted. Qed.
Print Assumptions C108_array_false_refuted.
Theorem C108_matrix_false_refuted : exists m states M, to_matrix true m states NFalse = Ok M /\
  ~ forall i j, (i < length states)%nat -> (j < length states)%nat -> nth j (nth i M []) (r0 cC) = rho_of m (at_pos states i) (at_pos states j).
Proof. exact bare_matrix_refuted. Qed.
Print Assumptions C108_matrix_false_refuted.
Theorem C108_not_indexable : forall m states nrm,
  to_matrix false m states nrm = Err RuntimeError /\ to_array false m states nrm = Err RuntimeError /\ log_trace false m states = Err RuntimeError.
Proof. exact not_indexable. Qed.
Print Assumptions C108_not_indexable.
(** log_trace is the logarithm of the trace of a single state, and always too small for two
    states or more *)
Theorem C108_log_trace_partial : forall m s d, m s s = Some d -> snd d = 0 ->
  exists r, log_trace true m [s] = Ok (Some r) /\ trace_of m [s] = (exp r, 0).
Proof. exact log_trace_exact. Qed.
Print Assumptions C108_log_trace_partial.
Theorem C108_log_trace_refuted : forall m states, (2 <= length states)%nat -> (forall s, In s states -> exists d, m s s = Some (d, 0)) ->
  exists r, log_trace true m states = Ok (Some r) /\ exp r < fst (trace_of m states).
Proof. exact log_trace_always_low. Qed.
Print Assumptions C108_log_trace_refuted.
(** The view of the diagonal *)
Theorem C108_diagonal : forall m x, amplitude (diagonal m x) = rho_of m x x.
Proof. reflexivity. Qed.
Print Assumptions C108_diagonal.

(** Neural density matrices: a row and a column may be given joined; hermitian for all
    parameters, the diagonal real and not negative *)
Theorem C108_spin_defined : forall n a b p x y, sized n x -> sized n y -> exists l, ndm_spin n a b p x (Some y) = Ok l /\ ndm_spin n a b p (x ++ y) None = Ok l.
Proof. intros n a b p x y Hx Hy. destruct (spin_some n a b p x y Hx Hy) as [l H]. exists l. split; exact H. Qed.
Print Assumptions C108_spin_defined.
Theorem C108_spin_hermitian : forall n a b p, hermitian (sized n) (rho_of (as_machine (ndm_spin n a b p))).
Proof. intros n a b. exact (spin_herm n a b (sized n) (fun x H => H)). Qed.
Print Assumptions C108_spin_hermitian.
Theorem C108_spin_diagonal : forall n a b p x, sized n x ->
  0 <= fst (rho_of (as_machine (ndm_spin n a b p)) x x) /\ snd (rho_of (as_machine (ndm_spin n a b p)) x x) = 0.
Proof. intros n a b. exact (spin_diag n a b (sized n) (fun x H => H)). Qed.
Print Assumptions C108_spin_diagonal.
(** Positive if the input of no mixing unit is purely imaginary *)
Theorem C108_spin_positive_partial : forall n a b (ok : config -> Prop) p, (forall x, ok x -> sized n x) ->
  (forall x y j, ok x -> ok y -> (j < b)%nat -> off_axis (theta_m n p x y j)) ->
  positive_semidefinite ok (rho_of (as_machine (ndm_spin n a b p))).
Proof. intros n a b ok p Hok. exact (spin_psd n a b ok Hok p). Qed.
Print Assumptions C108_spin_positive_partial.
Theorem C108_spin_positive_refuted : exists p, ~ positive_semidefinite (sized 2) (rho_of (as_machine (ndm_spin 2 0 1 p))).
Proof. exact spin_refuted. Qed.
Print Assumptions C108_spin_positive_refuted.
Theorem C108_phase_defined : forall n a b p bm bp, b_mod p = Some bm -> b_phs p = Some bp -> forall x y, sized n x -> sized n y ->
  exists l, ndm_phase n a b p x (Some y) = Ok l /\ ndm_phase n a b p (x ++ y) None = Ok l.
Proof. intros n a b p bm bp Em Ep x y Hx Hy. destruct (phase_some n a b p bm bp Em Ep x y Hx Hy) as [l H]. exists l. split; exact H. Qed.
Print Assumptions C108_phase_defined.
Theorem C108_phase_hermitian : forall n a b p bm bp, b_mod p = Some bm -> b_phs p = Some bp ->
  hermitian (sized n) (rho_of (as_machine (ndm_phase n a b p))).
Proof. intros n a b p bm bp Em Ep. exact (phase_herm n a b (sized n) (fun x H => H) p bm bp Em Ep). Qed.
Print Assumptions C108_phase_hermitian.
Theorem C108_phase_diagonal : forall n a b p bm bp, b_mod p = Some bm -> b_phs p = Some bp -> forall x, sized n x ->
  0 <= fst (rho_of (as_machine (ndm_phase n a b p)) x x) /\ snd (rho_of (as_machine (ndm_phase n a b p)) x x) = 0.
Proof. intros n a b p bm bp Em Ep. exact (phase_diag n a b (sized n) (fun x H => H) p bm bp Em Ep). Qed.
Print Assumptions C108_phase_diagonal.
Theorem C108_phase_positive_partial : forall n a b (ok : config -> Prop) p bm bp, (forall x, ok x -> sized n x) ->
  b_mod p = Some bm -> b_phs p = Some bp ->
  (forall x y j, ok x -> ok y -> (j < b)%nat -> off_axis (theta_x n p x y j)) ->
  positive_semidefinite ok (rho_of (as_machine (ndm_phase n a b p))).
Proof. intros n a b ok p bm bp Hok Em Ep. exact (phase_psd n a b ok Hok p bm bp Em Ep). Qed.
Print Assumptions C108_phase_positive_partial.
Theorem C108_phase_positive_refuted : exists p bm bp, b_mod p = Some bm /\ b_phs p = Some bp /\
  ~ positive_semidefinite (sized 2) (rho_of (as_machine (ndm_phase 2 0 1 p))).
Proof. exact phase_refuted. Qed.
Print Assumptions C108_phase_positive_refuted.
(** NdmSpinPhase without hidden biases never works *)
Theorem C108_phase_no_bias_refuted : forall n a b p x y, sized n x -> sized n y -> b_mod p = None -> ndm_phase n a b p x (Some y) = Err TypeError.
Proof. exact LegDm_Net.phase_no_bias. Qed.
Print Assumptions C108_phase_no_bias_refuted.
(** RbmSpin: a row and a column of quantum numbers are joined; with automorphisms it is
    never built *)
Theorem C108_rbm_joined : forall m (xr xc : list (list cpx)), length xr = length xc ->
  dm_rbm_log_val m xr (Some xc) = log_val m 2 (map (fun q => fst q ++ snd q) (combine xr xc)) false.
Proof. exact dm_joined. Qed.
Print Assumptions C108_rbm_joined.
Theorem C108_rbm_automorphisms_refuted : forall size n_hidden alpha vis hid a d, dm_rbm size n_hidden alpha vis hid (Some a) d = Err Exception_.
Proof. reflexivity. Qed.
Print Assumptions C108_rbm_automorphisms_refuted.

(** The hypotheses are met *)
Example C108_ex_trace : trace_of corr two = (4, 0) /\ concat two = [1; -1].
Proof. split; [exact corr_trace|reflexivity]. Qed.
Example C108_ex_positive :
  (forall x y j, spin1 x -> spin1 y -> (j < 1)%nat -> off_axis (theta_m 1 good x y j)) /\ (forall x, spin1 x -> sized 1 x) /\ spin1 [1] /\ spin1 [-1].
Proof. exact ex_off_axis. Qed.
Example C108_ex_log_trace : log_trace true (fun _ _ => Some (0, 0)) two = Ok (Some 0) /\ trace_of (fun _ _ => Some (0, 0)) two = (2, 0).
Proof. exact ex_log_trace. Qed.
