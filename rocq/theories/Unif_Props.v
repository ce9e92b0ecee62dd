(** * Property theorems: distribution of random states *)
From Coq Require Import ZArith QArith List Bool Reals Factorial.
From Verif Require Import Base Hilbert_Model Hilbert_Spec Balance_Spec Rules_Spec Unif_Model Unif_Spec Unif_Proofs Unif_Fill Unif_Main Unif_Multi Unif_Cases.
Import ListNotations.
Open Scope R_scope.

(** random_state(key) never raises and can return exactly the configurations of the space. *)
Theorem C111_support : forall h, drawable h -> supported_on (random_state h) (config h).
Proof. exact support_thm. Qed.
Print Assumptions C111_support.

(** The documentation promises the uniform distribution for every space.  This holds when
    every constrained factor has two local values; what is missing is false, see
    [C111_uniform_refuted]. *)
Theorem C111_uniform_partial : forall h, drawable h -> two_valued h -> uniform_on (random_state h) (config h).
Proof. exact uniform_thm. Qed.
Print Assumptions C111_uniform_partial.

Example C111_ex_space : drawable (Tensor [Fock 1 true 3 (Some (2%Z, O)); Doubled (Spin 1 4 (Some (0%Q, O))); Custom (Some [3; 5; 7]%Z) 2 None]) /\
  two_valued (Tensor [Fock 1 true 3 (Some (2%Z, O)); Doubled (Spin 1 4 (Some (0%Q, O))); Custom (Some [3; 5; 7]%Z) 2 None]).
Proof. exact example_space. Qed.
Example C111_ex_prob : prob (random_state (Spin 1 4 (Some (0%Q, O)))) [1; -1; -1; 1]%Z = / 6.
Proof. exact example_prob. Qed.

Theorem C111_uniform_refuted : exists h, drawable h /\ ~ uniform_on (random_state h) (config h).
Proof. exact (ex_intro _ _ refuted_fock). Qed.
Print Assumptions C111_uniform_refuted.

Theorem C111_uniform_spin_refuted :
  drawable (Spin 2 2 (Some (0%Q, O))) /\
  ~ uniform_on (random_state (Spin 2 2 (Some (0%Q, O)))) (config (Spin 2 2 (Some (0%Q, O)))).
Proof. exact refuted_spin. Qed.
Print Assumptions C111_uniform_spin_refuted.

(** Fock spaces with [p] particles on [N] sites, each of which can hold them all: the
    multinomial distribution. *)
Theorem C111_multinomial : forall n_max N p id h x, mk_Fock n_max N (Some p) id = Ok h -> (0 < N)%nat ->
  (match n_max with Some m => p <= m | None => True end)%Z -> config h x ->
  prob (random_state h) x = INR (fact (Z.to_nat p)) / occ_facts x * (/ INR N) ^ Z.to_nat p.
Proof. exact multinomial_thm. Qed.
Print Assumptions C111_multinomial.

(** From two sites and two particles on, one configuration is [p] times as likely as another. *)
Theorem C111_not_uniform_refuted : forall n_max N p id h, mk_Fock n_max (S (S N)) (Some p) id = Ok h -> (2 <= p)%Z ->
  (match n_max with Some m => p <= m | None => True end)%Z ->
  exists x y, config h x /\ config h y /\ prob (random_state h) y = IZR p * prob (random_state h) x.
Proof. exact not_uniform_thm. Qed.
Print Assumptions C111_not_uniform_refuted.

Example C111_ex_fock : mk_Fock None 2 (Some 2%Z) 0 = Ok (Fock 2 true 2 (Some (2%Z, O))).
Proof. reflexivity. Qed.

(** Without a key (deprecated): the same where it works. *)
Theorem C111_legacy_support : forall h, drawable h -> legacy_ok h -> supported_on (random_state_legacy h) (config h).
Proof. exact legacy_support_thm. Qed.
Print Assumptions C111_legacy_support.

Theorem C111_legacy_uniform_partial : forall h, drawable h -> legacy_ok h -> two_valued h ->
  uniform_on (random_state_legacy h) (config h).
Proof. exact legacy_uniform_thm. Qed.
Print Assumptions C111_legacy_uniform_partial.

(** On a Fock space without a particle number it is uniform on the configurations in which
    no site is full, ... *)
Theorem C111_legacy_fock : forall m N, (0 < m)%Z ->
  uniform_on (random_state_legacy (Fock m true N None)) (fun x => length x = N /\ forall z, In z x -> (0 <= z < m)%Z).
Proof. exact legacy_fock_uniform_thm. Qed.
Print Assumptions C111_legacy_fock.

(** ... so never all of the space; with [n_max = 0] it raises ValueError. *)
Theorem C111_legacy_fock_refuted : forall m N, (0 <= m)%Z -> (0 < N)%nat ->
  drawable (Fock m true N None) /\ ~ supported_on (random_state_legacy (Fock m true N None)) (config (Fock m true N None)).
Proof. exact legacy_fock_refuted_thm. Qed.
Print Assumptions C111_legacy_fock_refuted.

Theorem C111_legacy_fock_zero : forall N, random_state_legacy (Fock 0 true (S N) None) = Fail ValueError.
Proof. exact legacy_fock_zero_thm. Qed.
Print Assumptions C111_legacy_fock_zero.

(** Tensor products have no legacy method, constrained custom spaces neither function. *)
Theorem C111_legacy_tensor : forall l, random_state_legacy (Tensor l) = Fail AttributeError.
Proof. exact legacy_tensor_thm. Qed.
Print Assumptions C111_legacy_tensor.

Theorem C111_constrained_custom : forall ls N c,
  random_state (Custom (Some ls) N (Some c)) = Fail NotImplementedError /\
  random_state_legacy (Custom (Some ls) N (Some c)) = Fail NotImplementedError.
Proof. exact constrained_custom_thm. Qed.
Print Assumptions C111_constrained_custom.

(** Which function a call reaches, and the size it gets: a tuple as first argument is the
    size, and a size given beside it is dropped. *)
Theorem C111_dispatch :
  (forall l s, dispatch_random (ATuple l) s = Legacy (ATuple l)) /\
  (forall n, dispatch_random NotGiven (AnInt n) = Legacy (AnInt n) /\
             dispatch_random AKey (AnInt n) = WithKey AKey (AnInt n) /\
             dispatch_random (AnInt n) NotGiven = Legacy (AnInt n)) /\
  dispatch_random AKey NotGiven = WithKey AKey ANone /\ dispatch_random NotGiven NotGiven = Legacy ANone.
Proof. exact dispatch_thm. Qed.
Print Assumptions C111_dispatch.
