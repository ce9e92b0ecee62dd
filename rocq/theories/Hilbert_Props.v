(** * Properties C01 - C07: indexing of Hilbert spaces *)
From Coq Require Import ZArith QArith List Bool Sorted Lia.
From Verif Require Import Base BaseFacts Hilbert_Model Hilbert_Spec Hilbert_Proofs.
Import ListNotations.
Open Scope Z_scope.

(** Concrete spaces used to show that the hypotheses below are satisfiable. *)
Definition ex_fock : hilbert := Fock 2 true 2 (Some (2, 0%nat)).
Definition ex_spin : hilbert := Spin 1 4 (Some (0 # 1, 0%nat)).
Definition ex_custom : hilbert := Custom (Some [132; -1232; 0]) 2 None.
Definition ex_tensor : hilbert := Tensor [Spin 2 2 None; Qubit 1; ex_fock].
Definition ex_doubled : hilbert := Doubled (Tensor [Qubit 1; Fock 2 true 1 None]).

Lemma ex_sane : sane ex_fock /\ sane ex_spin /\ sane ex_custom /\ sane ex_tensor /\ sane ex_doubled.
Proof.
  assert (F : sane ex_fock) by (constructor; simpl; lia).
  repeat split; auto.
  - constructor; [simpl; lia|]. intros sz id E; inversion E; subst. exists 0. reflexivity.
  - constructor; [|discriminate|simpl; lia].
    repeat constructor; simpl; intuition discriminate.
  - constructor; [|reflexivity]. repeat constructor; auto; simpl; try lia; try discriminate.
  - constructor; [|reflexivity]. constructor; [|reflexivity].
    repeat constructor; simpl; lia.
Qed.

(** ** C01 (and the round-trip part of C03, C05, C06)
    numbers_to_states and states_to_numbers are mutually inverse bijections between
    0..n_states-1 and the configurations of the space. *)
Theorem C01_index_state_round_trip :
  forall h N, sane h -> n_states h = Ok N ->
  (forall n, 0 <= n < N ->
     exists s, numbers_to_states h n = Ok s /\ config h s /\ states_to_numbers h s = Ok n) /\
  (forall s, config h s ->
     exists n, 0 <= n < N /\ states_to_numbers h s = Ok n /\ numbers_to_states h n = Ok s).
Proof. exact (fun h N S E => conj (round_trip_numbers h N S E) (round_trip_states h N S E)). Qed.
Print Assumptions C01_index_state_round_trip.

(** n_states never raises on a sane space. *)
Theorem C01_n_states_defined :
  forall h, sane h -> exists N, n_states h = Ok N /\ 0 <= N <= local_dims h.
Proof. exact sane_n_states. Qed.
Print Assumptions C01_n_states_defined.

Example C01_ex : sane ex_custom /\ n_states ex_custom = Ok 9 /\
  numbers_to_states ex_custom 5 = Ok [0; 132] /\ states_to_numbers ex_custom [0; 132] = Ok 5.
Proof. split; [apply ex_sane|]. vm_compute. auto. Qed.

(** ** C02
    all_states lists every configuration exactly once, in lexicographic order with the
    first site most significant, and n_states is the length of that list. *)
Theorem C02_all_states_lexicographic :
  forall h, sane h ->
  exists L, all_states h = Ok L /\ StronglySorted lex_lt L /\
            (forall s, In s L <-> config h s) /\ n_states h = Ok (Z.of_nat (length L)).
Proof. exact all_states_spec. Qed.
Print Assumptions C02_all_states_lexicographic.

(** The index order is the lexicographic order. *)
Theorem C02_index_order :
  forall h a b n m, sane h -> config h a -> config h b ->
  states_to_numbers h a = Ok n -> states_to_numbers h b = Ok m ->
  (n < m <-> lex_lt a b).
Proof. exact index_monotone. Qed.
Print Assumptions C02_index_order.

Example C02_ex : all_states (Spin 1 2 None) = Ok [[-1; -1]; [-1; 1]; [1; -1]; [1; 1]].
Proof. vm_compute. auto. Qed.

(** ** C03
    A constrained space enumerates the sub-sequence of the unconstrained enumeration
    that satisfies the constraint ([p] is any predicate equivalent to the constraint on
    the configurations of the unconstrained space [h0]). *)
Theorem C03_constrained_subsequence :
  forall h h0 p L L0, sane h -> sane h0 ->
  (forall s, config h s <-> config h0 s /\ p s = true) ->
  all_states h = Ok L -> all_states h0 = Ok L0 -> L = filter p L0.
Proof. exact constrained_is_filter. Qed.
Print Assumptions C03_constrained_subsequence.

Example C03_ex :
  all_states ex_fock = Ok [[0; 2]; [1; 1]; [2; 0]] /\ n_states ex_spin = Ok 6 /\
  (forall s, config ex_fock s <-> config (Fock 2 true 2 None) s /\ (zsum s =? 2) = true) /\
  all_states ex_fock =
  match all_states (Fock 2 true 2 None) with
  | Ok l => Ok (filter (fun s => zsum s =? 2) l) | Err e => Err e end.
Proof.
  split; [vm_compute; auto|]. split; [vm_compute; auto|]. split; [|vm_compute; auto].
  intros s. unfold ex_fock. rewrite !config_Fock_iff, Z.eqb_eq. split.
  - intros (A & B & C). repeat split; auto; try (apply B; auto); try discriminate. eapply C; eauto.
  - intros ((A & B & _) & C). repeat split; auto; try (apply B; auto).
    intros p id E; inversion E; subst; auto.
Qed.

(** ** C04 (false of the code)
    A configuration that violates the constraint can be given the number of another
    configuration: in Fock(n_max=2, N=2, n_particles=2), [0,1] gets the number of [0,2]. *)
Theorem C04_violating_state_accepted_refuted :
  exists h s t n, sane h /\ length s = hsize h /\ ~ config h s /\ config h t /\
    states_to_numbers h s = Ok n /\ states_to_numbers h t = Ok n.
Proof.
  exists ex_fock, [0; 1], [0; 2], 0. split; [apply ex_sane|]. split; [reflexivity|].
  split; [|split; [|split; vm_compute; reflexivity]].
  - intros C. apply config_Fock_iff in C. destruct C as (_ & _ & C).
    specialize (C _ _ eq_refl). vm_compute in C. discriminate.
  - constructor; auto.
    + simpl; intros x [<-|[<-|[]]]; lia.
    + intros p id E; inversion E; subst. reflexivity.
Qed.
Print Assumptions C04_violating_state_accepted_refuted.

(** What does hold: with a constraint [cf], a configuration [s] of local values gets the
    index of the first valid configuration that is not before [s] (its own index if it
    is valid), and an exception is raised exactly when there is none.
    Missing with respect to C04: rejection of every violating configuration. *)
Theorem C04_rank_or_error_partial :
  forall ls N cf s,
  NoDup ls -> ls <> [] -> Z.of_nat (length ls) ^ Z.of_nat N <= max_states ->
  length s = N -> (forall x, In x s -> In x ls) ->
  let valid u := (length u = N /\ forall x, In x u -> In x ls) /\ cf u = true in
  (exists n t, homog_states_to_numbers (Some ls) N (Some cf) s = Ok n /\ 0 <= n /\
     homog_numbers_to_states (Some ls) N (Some cf) n = Ok t /\ valid t /\
     (t = s \/ lex_lt s t) /\
     (forall u, valid u -> lex_lt u t -> lex_lt u s)) \/
  (homog_states_to_numbers (Some ls) N (Some cf) s = Err RuntimeError /\
   forall u, valid u -> lex_lt u s).
Proof.
  intros ls N cf s A B C D E valid.
  destruct (violating_state ls N cf s A B C (conj D E)) as [(n & t & H1 & H2 & H3 & H4 & H5 & H6 & H7)|[H1 H2]].
  - left. exists n, t. repeat split; auto; try apply H5. intros u [U1 U2]. apply H7; auto.
  - right. split; auto. intros u [U1 U2]. apply H2; auto.
Qed.
Print Assumptions C04_rank_or_error_partial.

Example C04_ex :
  homog_states_to_numbers (Some [0; 1; 2]) 2 (Some (fun s => zsum s =? 2)) [0; 1] = Ok 0 /\
  homog_states_to_numbers (Some [0; 1; 2]) 2 (Some (fun s => zsum s =? 2)) [2; 2] = Err RuntimeError.
Proof. vm_compute. auto. Qed.

(** Outside the local values there is no check at all: [2] is not a qubit state, yet it
    gets a number, one that is not below n_states. *)
Theorem C04_foreign_value_accepted_refuted :
  exists h s n N, sane h /\ length s = hsize h /\ ~ config h s /\
    states_to_numbers h s = Ok n /\ n_states h = Ok N /\ N <= n.
Proof.
  exists (Qubit 1), [2], 2, 2. split; [constructor; simpl; lia|]. split; [reflexivity|].
  split; [|repeat split; try (vm_compute; congruence)].
  intros C. apply config_Qubit_iff in C. destruct C as [_ C].
  destruct (C 2 (or_introl eq_refl)); lia.
Qed.
Print Assumptions C04_foreign_value_accepted_refuted.

(** ** C05
    Tensor products: the number of (a, b) is number(a)*n_states(rest) + number(b), i.e.
    the factor numbers are mixed-radix digits, first factor most significant, and
    n_states is the product. *)
Theorem C05_tensor_mixed_radix :
  forall h l N M a b na nb, sane (Tensor (h :: l)) ->
  n_states h = Ok N -> n_states (Tensor l) = Ok M ->
  config h a -> config (Tensor l) b ->
  states_to_numbers h a = Ok na -> states_to_numbers (Tensor l) b = Ok nb ->
  n_states (Tensor (h :: l)) = Ok (N * M) /\
  states_to_numbers (Tensor (h :: l)) (a ++ b) = Ok (na * M + nb) /\
  numbers_to_states (Tensor (h :: l)) (na * M + nb) = Ok (a ++ b).
Proof. exact tensor_index. Qed.
Print Assumptions C05_tensor_mixed_radix.

Example C05_ex : sane ex_tensor /\ n_states ex_tensor = Ok 54 /\
  numbers_to_states ex_tensor 40 = Ok [2; -2; 1; 1; 1] /\
  states_to_numbers ex_tensor [2; -2; 1; 1; 1] = Ok 40.
Proof. split; [apply ex_sane|]. vm_compute. auto. Qed.

(** Without the int64 bound the product wraps around: n_states of 4 factors of 2^17
    states each (all indexable) is reported as 0 instead of 2^68. *)
Theorem C05_overflow_refuted :
  exists l N, Forall sane l /\ n_states (Tensor l) = Ok N /\ N <> zprod (map local_dims l).
Proof.
  exists [Qubit 17; Qubit 17; Qubit 17; Qubit 17], 0.
  split; [repeat constructor; simpl; lia|]. split; [vm_compute; reflexivity|].
  vm_compute. discriminate.
Qed.
Print Assumptions C05_overflow_refuted.

(** ** C06
    Doubled spaces: row-major (row, column) numbering. *)
Theorem C06_doubled_row_col :
  forall h N a b na nb, sane (Doubled h) -> n_states h = Ok N ->
  config h a -> config h b -> states_to_numbers h a = Ok na -> states_to_numbers h b = Ok nb ->
  n_states (Doubled h) = Ok (N * N) /\
  states_to_numbers (Doubled h) (a ++ b) = Ok (na * N + nb) /\
  numbers_to_states (Doubled h) (na * N + nb) = Ok (a ++ b).
Proof. exact doubled_index. Qed.
Print Assumptions C06_doubled_row_col.

Example C06_ex : sane ex_doubled /\ n_states ex_doubled = Ok 36 /\
  numbers_to_states ex_doubled 20 = Ok [1; 0; 0; 2].
Proof. split; [apply ex_sane|]. vm_compute. auto. Qed.

(** ** C07
    Numbers >= n_states and states of the wrong length are rejected, for every space. *)
Theorem C07_too_large_rejected :
  forall h N n, n_states h = Ok N -> N <= n -> numbers_to_states h n = Err ValueError.
Proof. exact too_large_rejected. Qed.
Print Assumptions C07_too_large_rejected.

Theorem C07_wrong_shape_rejected :
  forall h s, length s <> hsize h -> states_to_numbers h s = Err ValueError.
Proof. exact wrong_shape_rejected. Qed.
Print Assumptions C07_wrong_shape_rejected.

Example C07_ex : n_states ex_tensor = Ok 54 /\ numbers_to_states ex_tensor 54 = Err ValueError.
Proof. vm_compute. auto. Qed.

(** Negative numbers are not rejected: number -1 is the first state of an unconstrained
    space and the last state of a constrained one. *)
Theorem C07_negative_accepted_refuted :
  numbers_to_states (Qubit 2) (-1) = Ok [0; 0] /\
  numbers_to_states ex_fock (-1) = Ok [2; 0] /\
  exists h n s, sane h /\ n < 0 /\ numbers_to_states h n = Ok s.
Proof.
  split; [vm_compute; auto|]. split; [vm_compute; auto|].
  exists ex_fock, (-1), [2; 0]. split; [apply ex_sane|]. split; [lia|]. vm_compute; auto.
Qed.
Print Assumptions C07_negative_accepted_refuted.

(** What holds for every integer, negative ones included: the outcome is an exception or
    a genuine configuration of the space (never garbage).
    Missing with respect to C07: rejection of negative numbers. *)
Theorem C07_result_is_configuration_partial :
  forall h, sane h -> forall n s, numbers_to_states h n = Ok s -> config h s.
Proof. exact any_int_config. Qed.
Print Assumptions C07_result_is_configuration_partial.
