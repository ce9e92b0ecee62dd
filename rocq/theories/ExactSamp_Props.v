From Coq Require Import List Arith ZArith QArith Lia.
From Verif Require Import Base Hilbert_Model Hilbert_Spec Hilbert_Props ARSamp_Spec ExactSamp_Model ExactSamp_Spec ExactSamp_Proofs.
Import ListNotations.
Open Scope Q_scope.

(** ** C78 *)

(** Whatever the space, the amplitudes (not all zero), the shape and the draws, [sample]
    returns chain_length x n_chains valid configurations, and the entry read from draw
    number [b] is the configuration [s] exactly if the draw lies in an interval belonging
    to [s] only. *)
Theorem C78_samples :
  forall h N amps pow cl nc us, sane h -> n_states h = Ok (Z.of_nat N) -> amplitudes N amps ->
  length us = (cl * nc)%nat -> Forall draw us ->
  exists out, sample_without_state h amps pow cl nc us = Ok out /\ length out = cl /\ Forall (fun r => length r = nc) out /\
    Forall (Forall (config h)) out /\
    forall b s n, (b < cl * nc)%nat -> config h s -> states_to_numbers h s = Ok (Z.of_nat n) ->
      (nth b (concat out) [] = s <-> drawn amps pow n (nth b us 0)).
Proof. exact sample_main. Qed.
Print Assumptions C78_samples.

(** The interval lies in [0,1], and its length is |psi(s)|^machine_pow / sum; the
    intervals fill [0,1]. *)
Theorem C78_probability :
  forall N amps pow i, amplitudes N amps -> (i < N)%nat ->
  (1 - born_below amps pow i) - (1 - born_below amps pow i - born amps pow i) == born amps pow i /\
  0 <= born amps pow i /\ 0 <= 1 - born_below amps pow i - born amps pow i /\ 1 - born_below amps pow i <= 1 /\
  born_below amps pow N == 1.
Proof. exact interval. Qed.
Print Assumptions C78_probability.

(** Normalisation of the amplitudes does not matter. *)
Theorem C78_scale :
  forall N c amps pow i, amplitudes N amps -> 0 < c -> born (map (Qmult c) amps) pow i == born amps pow i.
Proof. exact scale_main. Qed.
Print Assumptions C78_scale.

(** A configuration of amplitude zero is drawn for no draw; one of non-zero amplitude is
    drawn for some. *)
Theorem C78_zero_amplitude :
  forall N amps pow i u, amplitudes N amps -> (0 < pow)%nat -> nth i amps 0 == 0 -> ~ drawn amps pow i u.
Proof. exact zero_never. Qed.
Print Assumptions C78_zero_amplitude.
Theorem C78_support :
  forall N amps pow i, amplitudes N amps -> (i < N)%nat -> 0 < nth i amps 0 -> exists u, draw u /\ drawn amps pow i u.
Proof. exact support. Qed.
Print Assumptions C78_support.

(** After any history of calls the samples are those of the wave function of the last
    reset. *)
Theorem C78_history :
  forall h N ops s outs amps pow cl nc us, ops_run h ops (es_init N) = Ok (s, outs) ->
  last_reset ops None = Some (amps, pow) ->
  es_sample_chain h s cl nc us = sample_without_state h amps pow cl nc us.
Proof. exact history_main. Qed.
Print Assumptions C78_history.

(** [sample_next] without a state is documented to build one with [reset].  It does not:
    whatever the wave function and the draws, every sample is the first configuration. *)
Theorem C78_unreset_refuted :
  forall h N us, sane h -> n_states h = Ok (Z.of_nat N) -> (0 < N)%nat ->
  exists s0, numbers_to_states h 0 = Ok s0 /\ sample_next_without_state h N us = Ok (repeat s0 (length us)).
Proof. exact unreset_main. Qed.
Print Assumptions C78_unreset_refuted.

(** Two spins, amplitudes 1, 0, 2, 1. *)
Example C78_ex : sane (Spin 1 2 None) /\ n_states (Spin 1 2 None) = Ok 4%Z /\ amplitudes 4 [1; 0; 2; 1] /\
  sample_without_state (Spin 1 2 None) [1; 0; 2; 1] 2 2 2 [0; 1#2; 4#5; 99#100] = Ok [[[1; 1]; [1; -1]]; [[1; -1]; [-1; -1]]]%Z /\
  born [1; 0; 2; 1] 2 2 == 2 # 3 /\ drawn [1; 0; 2; 1] 2 2 (1 # 2) /\ ~ drawn [1; 0; 2; 1] 2 2 (99 # 100).
Proof.
  split; [constructor; [vm_compute; discriminate|intros ? ? H; discriminate H]|]. split; [reflexivity|]. split.
  { split; [reflexivity|]. split; [repeat constructor; discriminate|]. apply Exists_cons_hd. reflexivity. }
  split; [vm_compute; reflexivity|]. split; [vm_compute; reflexivity|].
  split; [split; vm_compute; [discriminate|reflexivity]|]. intros [_ H]. vm_compute in H. discriminate.
Qed.
Example C78_history_ex : let ops := [EReset [1; 0; 2; 1] 2; ENext [1#2]; EReset [0; 1; 0; 0] 2; EChain 1 1 [1#3]] in
  exists s, ops_run (Spin 1 2 None) ops (es_init 4) = Ok (s, [[[1; -1]]; [[-1; 1]]]%Z) /\ last_reset ops None = Some ([0; 1; 0; 0], 2%nat).
Proof. eexists. split; vm_compute; reflexivity. Qed.
