From Coq Require Import List ZArith Bool Reals.
From Verif Require Import Base MCState_Model MCState_Spec Rings ARNN_Model ToArray_Model Estim_Model Estim_Spec Mixed_Model Mixed_Spec Mixed_Proofs.
Import ListNotations.
Open Scope Z_scope.

(** ** C79 *)

(** Under full sampling of the diagonal the estimate of an operator is Tr(rho O)/Tr(rho). *)
Theorem C79_expectation :
  forall N O conn log_rho, describes N O conn -> positive_diagonal N (rho_of log_rho) ->
  expect_operator log_rho conn (full_of N (sampled_weight 1 (diagonal_log log_rho))) = mixed_expectation N O (rho_of log_rho).
Proof. exact expect_mixed. Qed.
Print Assumptions C79_expectation.

(** The state and its diagonal have the same variables after any history, those assigned
    last, and the samples of both are drawn with them. *)
Theorem C79_in_sync :
  forall (Par MSt RS Smp : Type) n_nodes o_reset o_sample o_init with_pow physical sm v k a
         (x : mixed Par MSt RS Smp) ops,
  construct_mixed n_nodes o_init with_pow physical sm v k a = Ok x ->
  let y := mixed_run n_nodes o_reset o_sample o_init ops x in
  variables (x_main y) = mixed_current ops v /\ variables (x_diag y) = mixed_current ops v /\
  (exists t w, msamples n_nodes o_reset o_sample (x_main y) = Ok (t, w) /\
     drawn_with o_sample (f_sampler (x_main y)) (mixed_current ops v) w) /\
  (exists t w, msamples n_nodes o_reset o_sample (x_diag y) = Ok (t, w) /\
     drawn_with o_sample (f_sampler (x_diag y)) (mixed_current ops v) w).
Proof. exact (fun Par MSt RS Smp => @sync_main Par MSt RS Smp). Qed.
Print Assumptions C79_in_sync.

(** The constructor sets machine_pow of the diagonal sampler to 1, whatever sampler is
    given; it stays so until sampler_diag is assigned. *)
Theorem C79_power :
  forall (Par MSt RS Smp : Type) n_nodes o_reset o_sample o_init with_pow physical sm v k a
         (x : mixed Par MSt RS Smp) ops (pow : sampler -> Z),
  construct_mixed n_nodes o_init with_pow physical sm v k a = Ok x ->
  (forall s p, pow (with_pow s p) = p) ->
  f_sampler (x_diag (mixed_run n_nodes o_reset o_sample o_init ops x)) = diag_sampler ops (f_sampler (x_diag x)) /\
  pow (f_sampler (x_diag x)) = 1.
Proof. exact (fun Par MSt RS Smp => @power_main Par MSt RS Smp). Qed.
Print Assumptions C79_power.

(** Assigning sampler_diag keeps the machine_pow of the sampler given (2 by default), and
    then the estimate is wrong even under full sampling. *)
Theorem C79_assigned_power_refuted :
  (forall (Par MSt RS Smp : Type) n_nodes o_reset o_sample o_init (x : mixed Par MSt RS Smp) sd,
    f_sampler (x_diag (mixed_step n_nodes o_reset o_sample o_init (XSamplerDiag sd) x)) = sd) /\
  exists N O conn log_rho,
    describes N O conn /\ positive_diagonal N (rho_of log_rho) /\
    expect_operator log_rho conn (full_of N (sampled_weight 2 (diagonal_log log_rho))) <> mixed_expectation N O (rho_of log_rho).
Proof. exact (conj (fun Par MSt RS Smp n_nodes o_reset o_sample o_init x sd => eq_refl) squared_diagonal). Qed.
Print Assumptions C79_assigned_power_refuted.

(** The documented keywords n_samples_per_rank and apply_fun can never be used. *)
Theorem C79_keywords_refuted :
  forall (Par MSt RS Smp : Type) n_nodes o_init with_pow physical sm v k a (m : mcstate Par MSt RS Smp),
  construct n_nodes o_init sm v (k_n_samples k) (k_per_rank k) (k_discard k) = Ok m ->
  (a_old_discard a = None \/ a_discard a = None) ->
  k_per_rank k <> None \/ k_apply_fun k = true ->
  construct_mixed (Smp := Smp) n_nodes o_init with_pow physical sm v k a = Err TypeError.
Proof. exact (fun Par MSt RS Smp => @keywords_main Par MSt RS Smp). Qed.
Print Assumptions C79_keywords_refuted.

(** Saving and loading restores the state and its diagonal; the state loaded into keeps
    everything but the cached samples of its diagonal. *)
Theorem C79_roundtrip :
  forall (Par MSt RS Smp : Type) n_nodes o_reset o_sample o_init with_pow physical sm v k a
         (x : mixed Par MSt RS Smp) ops (t : mixed Par MSt RS Smp),
  0 < n_chains n_nodes sm -> 0 < n_chains n_nodes (f_sampler (x_diag x)) ->
  construct_mixed n_nodes o_init with_pow physical sm v k a = Ok x -> forallb plain_mixed ops = true ->
  let u := mixed_run n_nodes o_reset o_sample o_init ops x in
  f_sampler (x_main t) = f_sampler (x_main u) -> f_sampler (x_diag t) = f_sampler (x_diag u) ->
  exists t' u', deserialize_mixed n_nodes t (serialize_mixed u) = Ok (t', u') /\
    variables (x_main u') = variables (x_main u) /\ variables (x_diag u') = variables (x_diag u) /\
    f_rs (x_main u') = f_rs (x_main u) /\ f_rs (x_diag u') = f_rs (x_diag u) /\
    f_n_samples (x_main u') = f_n_samples (x_main u) /\ f_n_samples (x_diag u') = f_n_samples (x_diag u) /\
    f_chain_length (x_main u') = f_chain_length (x_main u) /\ f_chain_length (x_diag u') = f_chain_length (x_diag u) /\
    f_discard (x_main u') = f_discard (x_main u) /\ f_discard (x_diag u') = f_discard (x_diag u) /\
    x_main t' = x_main t /\ x_diag t' = mreset (x_diag t).
Proof. exact (fun Par MSt RS Smp => @mixed_roundtrip Par MSt RS Smp). Qed.
Print Assumptions C79_roundtrip.

(** So loading is not without effect on the state loaded into: its diagonal is sampled
    again. *)
Theorem C79_load_refuted :
  exists (o_reset : sampler -> nat * nat -> Z -> Z) (o_sample : sampler -> nat * nat -> Z -> Z -> Z * Z)
         (t t' u' : mixed nat nat Z Z) s s' w w',
    msamples 1 o_reset o_sample (x_diag t) = Ok (s, w) /\
    deserialize_mixed 1 t (serialize_mixed t) = Ok (t', u') /\
    msamples 1 o_reset o_sample (x_diag t') = Ok (s', w') /\ w <> w'.
Proof.
  exact (ex_intro _ (fun _ _ rs => rs) (ex_intro _ (fun _ _ rs len => (rs, rs + len))
    (let d := MCState 0%nat 0%nat (Sampler 0 1 false) 13 (Some 3) 10 10 10 0 in
     ex_intro _ (Mixed d d) (ex_intro _ _ (ex_intro _ _ (ex_intro _ _ (ex_intro _ _ (ex_intro _ 3 (ex_intro _ 13
       (conj eq_refl (conj eq_refl (conj eq_refl (fun H : 3 = 13 =>
         eq_ind 3 (fun z => match z with 3 => True | _ => False end) I 13 H))))))))))))).
Qed.
Print Assumptions C79_load_refuted.

(** An operator of the physical space has an expectation value; its gradient, and anything
    of an operator on another space, is the value NotImplemented, not an exception. *)
Theorem C79_dispatch :
  mixed_expect true false = Superoperator /\ mixed_expect false true = Operator /\
  mixed_expect_and_grad true false = Superoperator /\
  mixed_expect_and_grad false true = ReturnsNotImplemented /\
  mixed_expect false false = ReturnsNotImplemented /\ mixed_expect_and_grad false false = ReturnsNotImplemented.
Proof. exact (conj eq_refl (conj eq_refl (conj eq_refl (conj eq_refl (conj eq_refl eq_refl))))). Qed.
Print Assumptions C79_dispatch.

(** reset() discards the samples of both: the next ones are drawn anew. *)
Theorem C79_reset :
  forall (Par MSt RS Smp : Type) n_nodes o_reset o_sample o_init (x : mixed Par MSt RS Smp),
  let y := mixed_step n_nodes o_reset o_sample o_init (XMain OReset) x in
  msamples n_nodes o_reset o_sample (x_main y) = msample n_nodes o_reset o_sample None None None (x_main x) /\
  msamples n_nodes o_reset o_sample (x_diag y) = msample n_nodes o_reset o_sample None None None (x_diag x).
Proof. exact (fun Par MSt RS Smp n_nodes o_reset o_sample o_init x => conj eq_refl eq_refl). Qed.
Print Assumptions C79_reset.

(** The settings with suffix _diag act on the diagonal as those of the same name without it do
    on the state, and leave the state alone. *)
Theorem C79_settings :
  forall (Par MSt RS Smp : Type) n_nodes o_reset o_sample o_init (x : mixed Par MSt RS Smp),
  let after op := mixed_step n_nodes o_reset o_sample o_init op x in
  (forall d, after (XDiscardDiag d) = Mixed (x_main x) (match set_discard d (x_diag x) with Ok s => s | Err _ => x_diag x end)) /\
  (forall n, after (XNDiag n) = Mixed (x_main x) (match set_n_samples n_nodes n (x_diag x) with Ok s => s | Err _ => x_diag x end)) /\
  (forall n, after (XLenDiag n) = Mixed (x_main x) (match set_chain_length n_nodes n (x_diag x) with Ok s => s | Err _ => x_diag x end)) /\
  (forall sm, after (XSamplerDiag sm) = Mixed (x_main x) (set_sampler o_init sm (x_diag x))).
Proof.
  exact (fun Par MSt RS Smp n_nodes o_reset o_sample o_init x =>
    conj (fun d => eq_refl) (conj (fun d => eq_refl) (conj (fun d => eq_refl) (fun d => eq_refl)))).
Qed.
Print Assumptions C79_settings.

(** Concrete cases *)
Example C79_ex_expectation : describes 2 wit_P wit_Pconn /\ positive_diagonal 2 (rho_of wit_rho) /\
  mixed_expectation 2 wit_P (rho_of wit_rho) = (/ 3, 0)%R.
Proof. exact (conj wit_P_describes (conj wit_rho_positive wit_exact)). Qed.
Definition ex_sample := fun (sm : sampler) (v : nat * nat) (rs : Z) (len : Z) => ((sm_id sm, v, len), rs + 1).
Definition ex_pow := fun (sm : sampler) (p : Z) => Sampler (10 * Z.to_nat p + sm_id sm) (sm_chains_per_rank sm) (sm_exact sm).
Example C79_ex_history :
  exists x : mixed nat nat Z (nat * (nat * nat) * Z),
    construct_mixed 2 (fun _ _ => 0) ex_pow (fun s => s) (Sampler 1 4 false) (0%nat, 0%nat)
      (Kwargs (Some 16) None None false) (DiagArgs None (Some 32) None None None) = Ok x /\
    let y := mixed_run 2 (fun _ _ rs => rs) ex_sample (fun _ _ => 0)
      [XDiagSamples; XMain OSamples; XMain (OPar 5%nat); XDiagSamples; XMain (OVars (7%nat, 8%nat)); XNDiag 24] x in
    forallb plain_mixed [XDiagSamples; XMain OSamples; XMain (OPar 5%nat); XDiagSamples; XMain (OVars (7%nat, 8%nat)); XNDiag (Par := nat) (MSt := nat) (RS := Z) 24] = true /\
    match msamples 2 (fun _ _ rs => rs) ex_sample (x_diag y) with Ok (_, w) => w | Err _ => (0%nat, (0%nat, 0%nat), 0) end
    = (11%nat, (7%nat, 8%nat), 3).
Proof. eexists. split; [vm_compute; reflexivity|]. split; vm_compute; reflexivity. Qed.
