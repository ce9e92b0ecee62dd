(** * C103: state reconstruction follows the gradient of the likelihood *)
From Coq Require Import List Arith ZArith Reals.
From Verif Require Import Base Rings ARNN_Model ToArray_Model Estim_Model Estim_Spec Balance_Spec
  LegQsr_Model LegQsr_Spec LegQsr_Final LegQsr_Nll.
Import ListNotations.
Open Scope R_scope.

(** Whatever samples and training data a step works with: the update direction is the exact
    gradient of the mean of log |psi|^2 over the sampled configurations minus its mean over
    the measurements that were drawn; with SR this gradient, and the logarithmic derivatives
    at the samples of every rank, are handed over. *)
Theorem C103_step : forall N U rots m ts bs n batch k ranks,
  rotations N U rots -> training_set N rots ts bs -> q_writes m = true ->
  (0 < n)%nat -> (0 < batch)%nat -> (0 < k)%nat ->
  Forall (shaped N n batch k ts) ranks ->
  (forall d, In d (all_drawn ts bs ranks) -> cnorm2 (measured N U (q_log m) d) <> 0) ->
  exists dp, step m rots ts bs batch None ranks = Ok (Some dp) /\ length dp = q_npar m /\
    (forall solve, step m rots ts bs batch (Some solve) ranks
       = Ok (solve (map (fun r => map (q_der m) (concat (i_samples r))) ranks) (Some dp))) /\
    forall v log_psi t0, moves N m v log_psi t0 ->
      derivable_pt_lim (fun t => average (fun s => ln (cnorm2 (psi_of (log_psi t) s))) (all_samples ranks)
        - average (fun d => ln (cnorm2 (measured N U (log_psi t) d))) (all_drawn ts bs ranks)) t0
        (slope (q_npar m) dp v).
Proof. exact (fun N U rots m ts bs n batch k ranks HR HT HW Hn Hb Hk HS HA => gradient_main N U rots m ts bs HR HT HW n batch k Hn Hb Hk ranks HS HA). Qed.
Print Assumptions C103_step.

(** On average over the random inputs, the direction is the gradient of the negative
    log-likelihood of the whole training set under the normalised state; the chains may be
    correlated, between each other and with the choice of training data. *)
Theorem C103_unbiased : forall N U rots m ts bs n batch k nodes (O : list (R * list rank_in)),
  (0 < N)%nat -> rotations N U rots -> training_set N rots ts bs -> ts <> [] -> q_writes m = true ->
  (0 < n)%nat -> (0 < batch)%nat -> (0 < k)%nat -> (0 < nodes)%nat ->
  weights O -> Forall (fun o => length (snd o) = nodes /\ Forall (shaped N n batch k ts) (snd o)) O ->
  sampled N nodes n batch k ts (q_log m) O ->
  (forall d, In d (combine ts bs) -> cnorm2 (measured N U (q_log m) d) <> 0) ->
  exists f, (forall o, In o O -> step m rots ts bs batch None (snd o) = Ok (Some (f (snd o)))) /\
    forall v log_psi t0, moves N m v log_psi t0 ->
      derivable_pt_lim (fun t => neg_log_likelihood N U (log_psi t) (combine ts bs)) t0
        (slope (q_npar m) (mean_of_vectors (q_npar m) O f) v).
Proof. exact (fun N U rots m ts bs n batch k nodes O HN HR HT Hts HW Hn Hb Hk Hnodes HO HS HP HA => unbiased_main N U rots m ts bs HR HT HW n batch k Hn Hb Hk nodes O Hnodes HS HP HN Hts HA). Qed.
Print Assumptions C103_unbiased.

(** nll: minus the mean of log |<x|U_b|psi>|^2 plus the given constant; with the logarithm of
    the norm it is the negative log-likelihood. *)
Theorem C103_nll : forall N U rots m ts bs log_norm,
  rotations N U rots -> training_set N rots ts bs -> ts <> [] ->
  (forall d, In d (combine ts bs) -> cnorm2 (measured N U (q_log m) d) <> 0) ->
  nll m rots ts bs log_norm = Ok (Some (log_norm - average (fun d => ln (cnorm2 (measured N U (q_log m) d))) (combine ts bs))).
Proof. exact (fun N U rots m ts bs L HR HT => nll_value N U rots m ts bs HR HT L). Qed.
Print Assumptions C103_nll.
Theorem C103_nll_normalised : forall N U rots m ts bs, (0 < N)%nat ->
  rotations N U rots -> training_set N rots ts bs -> ts <> [] ->
  (forall d, In d (combine ts bs) -> cnorm2 (measured N U (q_log m) d) <> 0) ->
  nll m rots ts bs (ln (norm2_of N (psi_of (q_log m)))) = Ok (Some (neg_log_likelihood N U (q_log m) (combine ts bs))).
Proof. exact (fun N U rots m ts bs HN HR HT => nll_likelihood N U rots m ts bs HR HT HN). Qed.
Print Assumptions C103_nll_normalised.

(** With unitary rotations the outcomes in every basis have probabilities, and the negative
    log-likelihood is never negative. *)
Theorem C103_probabilities : forall N U b log_psi, (0 < N)%nat -> unitary N (U b) ->
  rsum (fun x => chance N U log_psi (x, b)) (seq 0 N) = 1 /\
  (forall x, (x < N)%nat -> 0 <= chance N U log_psi (x, b) <= 1).
Proof. exact chances. Qed.
Print Assumptions C103_probabilities.
Theorem C103_nll_nonnegative : forall N U log_psi data, (0 < N)%nat ->
  (forall d, In d data -> unitary N (U (snd d)) /\ (fst d < N)%nat) -> 0 <= neg_log_likelihood N U log_psi data.
Proof. exact nll_nonneg. Qed.
Print Assumptions C103_nll_nonnegative.

(** A single drawn measurement whose amplitude is zero turns the update into NaN, and the
    negative log-likelihood is infinite. *)
Theorem C103_impossible_data : forall N U rots m ts bs n batch k ranks d,
  rotations N U rots -> training_set N rots ts bs -> q_writes m = true ->
  (0 < n)%nat -> (0 < batch)%nat -> (0 < k)%nat -> Forall (shaped N n batch k ts) ranks ->
  (forall e conn, In e (all_drawn ts bs ranks) -> nth_error rots (snd e) = Some conn -> conn (fst e) <> []) ->
  In d (all_drawn ts bs ranks) -> cnorm2 (measured N U (q_log m) d) = 0 ->
  step m rots ts bs batch None ranks = Ok None.
Proof. exact step_nan. Qed.
Print Assumptions C103_impossible_data.
Theorem C103_nll_infinite : forall N U rots m ts bs log_norm d,
  rotations N U rots -> training_set N rots ts bs ->
  (forall e conn, In e (combine ts bs) -> nth_error rots (snd e) = Some conn -> conn (fst e) <> []) ->
  In d (combine ts bs) -> cnorm2 (measured N U (q_log m) d) = 0 -> nll m rots ts bs log_norm = Ok None.
Proof. exact (fun N U rots m ts bs L d HR HT => nll_infinite N U rots m ts bs HR HT L d). Qed.
Print Assumptions C103_nll_infinite.

(** A machine whose vector_jacobian_prod does not fill the array it is given (the jax
    machines): the update is whatever the memory held. *)
Theorem C103_any_machine_refuted : exists m rots ts bs samples ind, q_writes m = false /\ forall d, exists g h,
  step m rots ts bs 1 None [RankIn samples ind [Some [g]] [Some [h]]] = Ok (Some [d]).
Proof. exact (ex_intro _ jax_machine (ex_intro _ [id_conn] (ex_intro _ [1%nat] (ex_intro _ [0%nat] (ex_intro _ [[0%nat]] (ex_intro _ [0%nat] (conj eq_refl junk_step))))))). Qed.
Print Assumptions C103_any_machine_refuted.

(** At least the requested numbers of samples and of training data, fewer than one more round
    of the chains and ranks; a tenth of a rank's samples is discarded by default. *)
Theorem C103_sizes : forall n_samples n_data n_discard batch nodes z, (0 < batch)%Z -> (0 < nodes)%Z ->
  sizes n_samples n_data n_discard batch nodes = inl z ->
  (n_samples <= z_node z * batch * nodes < n_samples + batch * nodes)%Z /\
  (n_data <= z_data z * nodes < n_data + nodes)%Z /\
  z_discard z = match n_discard with Some d => d | None => (z_node z * batch / 10)%Z end.
Proof. exact sizes_main. Qed.
Print Assumptions C103_sizes.
(** Invalid numbers are refused; a [n_samples_data] that is not positive by a NameError. *)
Theorem C103_sizes_errors_partial : forall n_samples n_data n_discard batch nodes e,
  sizes n_samples n_data n_discard batch nodes = inr e ->
  (e = QErr ValueError /\ ((n_samples <= 0)%Z \/ exists d, n_discard = Some d /\ (d < 0)%Z)) \/
  (e = QNameError /\ (n_data <= 0)%Z).
Proof. exact sizes_errors. Qed.
Print Assumptions C103_sizes_errors_partial.
Theorem C103_sizes_errors_refuted : exists n_samples n_data n_discard batch nodes e,
  sizes n_samples n_data n_discard batch nodes = inr e /\ e <> QErr ValueError.
Proof. exact (ex_intro _ 8%Z (ex_intro _ 0%Z (ex_intro _ None (ex_intro _ 2%Z (ex_intro _ 1%Z (ex_intro _ QNameError (conj eq_refl (fun H => eq_ind QNameError (fun e => match e with QNameError => True | QErr _ => False end) I _ H)))))))). Qed.
Print Assumptions C103_sizes_errors_refuted.

(** ** The hypotheses can be met *)
Example C103_step_example : rotations 2 ex_U ex_rots /\ (forall b, unitary 2 (ex_U b)) /\
  training_set 2 ex_rots [0%nat; 1%nat] [0%nat; 1%nat] /\ q_writes ex_mach = true /\
  Forall (shaped 2 2 2 3 [0%nat; 1%nat]) ex_ranks /\
  (forall d, In d [(0, 0); (1, 1)]%nat -> cnorm2 (measured 2 ex_U (q_log ex_mach) d) <> 0) /\
  all_drawn [0%nat; 1%nat] [0%nat; 1%nat] ex_ranks = [(1, 1); (0, 0); (1, 1)]%nat /\
  moves 2 ex_mach (fun _ => (1, 0)) ex_path 0.
Proof. exact (conj ex_rotations (conj ex_unitary (conj ex_training (conj eq_refl (conj ex_shaped (conj ex_amplitudes (conj eq_refl ex_moves))))))). Qed.
Example C103_unbiased_example : weights ex_space /\
  Forall (fun o => length (snd o) = 1%nat /\ Forall (shaped 2 1 1 1 [0%nat; 1%nat]) (snd o)) ex_space /\
  sampled 2 1 1 1 1 [0%nat; 1%nat] (q_log ex_mach) ex_space.
Proof. exact (conj ex_weights (conj ex_space_shaped ex_sampled)). Qed.
Example C103_sizes_example : sizes 1000 128 None 16 3 = inl (QSize 21 43 33).
Proof. reflexivity. Qed.
