(** C81: exact real and imaginary time propagation *)
From Coq Require Import String List Arith Reals Lra ZArith.
From Verif Require Import Base Rings ARNN_Model ToArray_Model Estim_Model Estim_Spec Evolve_Model Evolve_Spec Evolve_Proofs.
Import ListNotations.
Open Scope R_scope.

(** Real time: every solution of the differential equation handed to the solver obeys
    d<O>/dt = i <[H, O]>, for every operator O ... *)
Theorem C81_ehrenfest : forall N H O a b psi, hermitian N H -> solution N (real_rhs N H) a b psi ->
  forall t, a <= t <= b ->
  cderiv (fun s => mean_of N O (psi s)) t (rmul cC (0, 1) (mean_of N (commutator N H O) (psi t))).
Proof. exact ehrenfest. Qed.
Print Assumptions C81_ehrenfest.

(** ... hence the norm and the reported energy and variance never change. *)
Theorem C81_real_time : forall N H a b psi, hermitian N H -> solution N (real_rhs N H) a b psi ->
  forall t, a <= t <= b -> norm2_of N (psi t) = norm2_of N (psi a) /\ estimate N H (psi t) = estimate N H (psi a).
Proof. exact real_conserved. Qed.
Print Assumptions C81_real_time.

Example C81_ex_real : hermitian 2 flip_op /\ solution 2 (real_rhs 2 flip_op) 0 1 rabi /\ norm2_of 2 (rabi 0) = 1.
Proof. split; [exact flip_hermitian|split; [apply rabi_solution|apply rabi_norm]]. Qed.

(** Imaginary time, normalised initial state: the state stays normalised ... *)
Theorem C81_imaginary_norm : forall N H a b psi, hermitian N H -> solution N (imaginary_rhs N H) a b psi ->
  norm2_of N (psi a) = 1 -> forall t, a <= t <= b -> norm2_of N (psi t) = 1.
Proof. exact imag_normalised. Qed.
Print Assumptions C81_imaginary_norm.

(** ... and the reported energy decreases at twice the variance, so it never rises. *)
Theorem C81_imaginary_energy : forall N H a b psi, hermitian N H -> solution N (imaginary_rhs N H) a b psi ->
  norm2_of N (psi a) = 1 ->
  (forall t, a <= t <= b -> derivable_pt_lim (fun s => fst (fst (estimate N H (psi s)))) t (- (2 * spread N H (psi t)))) /\
  (forall s t, a <= s -> s <= t -> t <= b -> fst (fst (estimate N H (psi t))) <= fst (fst (estimate N H (psi s)))).
Proof. exact imag_energy. Qed.
Print Assumptions C81_imaginary_energy.

Example C81_ex_imaginary : hermitian 2 zz /\ solution 2 (imaginary_rhs 2 zz) 0 1 cool /\ norm2_of 2 (cool 0) = 1.
Proof. split; [exact zz_hermitian|split; [apply cool_solution|apply cool_norm]]. Qed.

(** Estimates in a normalised state are the expectation value and the variance ... *)
Theorem C81_estimate : forall N O psi, hermitian N O -> norm2_of N psi = 1 ->
  estimate N O psi = (expectation N O psi, spread N O psi) /\ 0 <= spread N O psi.
Proof. exact estimate_main. Qed.
Print Assumptions C81_estimate.

(** ... but not in other states, such as the vector of ones in the documented example:
    nothing divides by the norm, and the reported variance can be negative. *)
Theorem C81_unnormalised_refuted : exists N O psi, hermitian N O /\ expectation N O psi = (1, 0) /\
  estimate N O psi = ((2, 0), - 2).
Proof. exact unnormalised_refuted. Qed.
Print Assumptions C81_unnormalised_refuted.

(** A real-valued initial array is integrated in real arithmetic: in real time, with a real
    Hamiltonian, the state never moves ... *)
Theorem C81_real_array_frozen : forall N H a b psi,
  (forall i j, (i < N)%nat -> (j < N)%nat -> snd (H i j) = 0) -> (forall t i, snd (psi t i) = 0) ->
  solution N (solver_rhs false (real_rhs N H)) a b psi -> forall t i, a <= t <= b -> (i < N)%nat -> psi t i = psi a i.
Proof. exact real_state_frozen. Qed.
Print Assumptions C81_real_array_frozen.

Example C81_ex_frozen : solution 2 (solver_rhs false (real_rhs 2 flip_op)) 0 1 (fun _ => up).
Proof.
  intros t i _ Hi. assert (E : solver_rhs false (real_rhs 2 flip_op) up i = (0, 0)).
  { destruct i as [|[|i]]; [..|exfalso; Lia.lia]; unfold solver_rhs, cast, real_rhs, dot, flip_op, up; cbn; f_equal; ring. }
  rewrite E. split; apply derivable_pt_lim_const.
Qed.

(** ... although the Schroedinger equation moves it. *)
Theorem C81_real_array_refuted : exists N H psi0, hermitian N H /\ norm2_of N psi0 = 1 /\
  (forall i, snd (psi0 i) = 0) /\
  (forall i, (i < N)%nat -> solver_rhs false (real_rhs N H) psi0 i = r0 cC) /\
  schroedinger N H psi0 1%nat = (0, -1).
Proof. exact real_state_refuted. Qed.
Print Assumptions C81_real_array_refuted.

(** Which options construct a driver (the documented matrix type "direct" does not). *)
Theorem C81_create : forall N H initial dt t0 p m,
  match create N H initial dt t0 p m with
  | Ok d => (p = "real"%string \/ p = "imaginary"%string) /\ (m = "sparse"%string \/ m = "dense"%string) /\
            d_t d = t0 /\ d_dt d = dt /\ d_state d = initial /\ s_y (d_solver d) = d_state d
  | Err _ => ~ ((p = "real"%string \/ p = "imaginary"%string) /\ (m = "sparse"%string \/ m = "dense"%string))
  end.
Proof. exact create_main. Qed.
Print Assumptions C81_create.

(** With steps that follow the flow exactly, any sequence of calls of advance moves the time
    by dt for each step and the state by the flow over that time. *)
Theorem C81_advance : forall flow impl fuel, is_flow flow -> exact_steps flow impl -> forall ns d d', 0 <= d_dt d ->
  s_y (d_solver d) = d_state d -> advances impl fuel ns d = Some (Ok d') ->
  d_t d' = d_t d + INR (list_sum ns) * d_dt d /\ d_state d' = flow (INR (list_sum ns) * d_dt d) (d_state d).
Proof. exact advances_main. Qed.
Print Assumptions C81_advance.

(** iter shows the state at the times t, t + step dt, ...: before each advance. *)
Theorem C81_iter : forall flow impl fuel, is_flow flow -> exact_steps flow impl -> forall k i step d l d', 0 <= d_dt d ->
  s_y (d_solver d) = d_state d -> iter impl fuel k i step d = Some (l, Ok d') ->
  l = map (fun j => ((i + j)%nat, d_t d + INR (j * step) * d_dt d, flow (INR (j * step) * d_dt d) (d_state d))) (seq 0 k) /\
  d_t d' = d_t d + INR (k * step) * d_dt d /\ d_state d' = flow (INR (k * step) * d_dt d) (d_state d).
Proof. exact iter_main. Qed.
Print Assumptions C81_iter.

Example C81_ex_advance : is_flow shift_flow /\ exact_steps shift_flow (half_impl (fun _ => false)) /\
  exists d', advances (half_impl (fun _ => false)) 5 [2%nat] start = Some (Ok d') /\ d_t d' = 2 /\ d_state d' 0%nat = (2, 0).
Proof.
  split; [exact shift_is_flow|split; [apply half_exact|]]. eexists. cbn [advances]. unfold advance, start.
  cbn [d_t d_dt d_state d_solver s_y s_calls d_t0 d_step d_new_t0]. rewrite two_steps by reflexivity. cbn [s_status].
  split; [reflexivity|]. cbn [d_t d_state s_t s_y]. split; [lra|]. unfold shift_flow. cbn [fst snd]. f_equal. lra.
Qed.

(** After a failed advance the driver shows the old time and state, but a further advance
    does not continue from there. *)
Theorem C81_retry_refuted : exists flow impl fuel d d1 d2, is_flow flow /\ exact_steps flow impl /\ s_y (d_solver d) = d_state d /\
  advance impl fuel 2 d = Some (Err TypeError, d1) /\ d_t d1 = d_t d /\ d_state d1 = d_state d /\
  advance impl fuel 2 d1 = Some (Ok tt, d2) /\ d_t d2 = d_t d + INR 2 * d_dt d /\
  d_state d2 0%nat = (3, 0) /\ flow (INR 2 * d_dt d) (d_state d) 0%nat = (2, 0).
Proof. exact retry_refuted. Qed.
Print Assumptions C81_retry_refuted.

(** Assigning the public attribute state has no effect on the evolution. *)
Theorem C81_set_state_refuted : exists flow impl fuel d v d2, is_flow flow /\ exact_steps flow impl /\ s_y (d_solver d) = d_state d /\
  advance impl fuel 2 (set_state v d) = Some (Ok tt, d2) /\
  d_state d2 = flow (INR 2 * d_dt d) (d_state d) /\ d_state d2 <> flow (INR 2 * d_dt d) v.
Proof. exact set_state_refuted. Qed.
Print Assumptions C81_set_state_refuted.

(** step_count raises on a new driver, and advancing never changes it. *)
Theorem C81_step_count_refuted : forall N H initial dt t0 p m d impl fuel ns d',
  create N H initial dt t0 p m = Ok d -> advances impl fuel ns d = Some (Ok d') ->
  step_count d' = Err AttributeError /\
  (forall d'', advances impl fuel ns (reset d) = Some (Ok d'') -> step_count d'' = Ok 0%Z).
Proof.
  exact (fun N H initial dt t0 p m d impl fuel ns d' HC HA => Logic.conj
    (eq_trans (step_count_main impl fuel ns d d' HA) (step_count_created N H initial dt t0 p m d HC))
    (fun d'' HR => step_count_main impl fuel ns (reset d) d'' HR)).
Qed.
Print Assumptions C81_step_count_refuted.

(** run raises whatever the number of iterations and the (integer) saving interval; and with
    no argument at all does it complete an iteration. *)
Theorem C81_run_refuted : (forall file_exists n k, run file_exists n (AInt k) = Err ValueError) /\
  (forall file_exists n a, run file_exists (S n) a <> Ok tt).
Proof. exact (Logic.conj run_main run_any). Qed.
Print Assumptions C81_run_refuted.

(** reset: the step count is zero, the attribute t0 is the present time, and the propagation goes on as before *)
Theorem C81_reset : forall d, step_count (reset d) = Ok 0%Z /\ d_new_t0 (reset d) = Some (d_t d) /\
  d_state (reset d) = d_state d /\ d_t (reset d) = d_t d /\ d_dt (reset d) = d_dt d /\ d_solver (reset d) = d_solver d.
Proof. exact reset_main. Qed.
Print Assumptions C81_reset.
