(** * Properties C08 - C11: powers, products, partial trace, flips, random states *)
From Coq Require Import ZArith QArith List Bool Permutation Lia.
From Verif Require Import Base BaseFacts Hilbert_Model Hilbert_Spec Hilbert_Proofs
  HilbertOps_Model HilbertOps_Spec HilbertOps_Proofs.
Import ListNotations.
Open Scope Z_scope.

(** ** C08
    The configurations of [h ** n] are the concatenations of n configurations of h. *)
Theorem C08_pow_configurations_partial :
  forall h n h', built h -> finite_space h -> hpow h n = Ok h' ->
  forall s, config h' s <-> exists parts, length parts = n /\ Forall (config h) parts /\ s = concat parts.
Proof. exact hpow_concat. Qed.
Print Assumptions C08_pow_configurations_partial.

(** It is available for unconstrained homogeneous spaces ... *)
Theorem C08_pow_available_unconstrained_partial :
  forall h n, built h -> homogeneous h -> unconstrained h -> finite_space h ->
  exists h', hpow h n = Ok h'.
Proof. exact hpow_available. Qed.
Print Assumptions C08_pow_available_unconstrained_partial.

(** ... but not for constrained Fock or Spin spaces (UnboundLocalError), nor for an
    unlimited Fock space (numpy refuses the array of local states). *)
Theorem C08_pow_available_refuted :
  (exists h, mk_Fock (Some 2) 2 (Some 2) 7 = Ok h /\ hpow h 2 = Err UnboundLocalError) /\
  (exists h, mk_Spin 1 2 (Some 0%Q) 7 = Ok h /\ hpow h 2 = Err UnboundLocalError) /\
  (exists h, mk_Fock None 2 None 7 = Ok h /\ hpow h 2 = Err ValueError).
Proof. repeat split; eexists; split; vm_compute; reflexivity. Qed.
Print Assumptions C08_pow_available_refuted.

(** Products: whenever [h1 * h2] returns, its configurations are the concatenations. *)
Theorem C08_product_configurations :
  forall depth h1 h2 h, built h1 -> built h2 -> all_finite h1 -> all_finite h2 ->
  hmul depth h1 h2 = Ok h ->
  forall s, config h s <-> exists a b, s = a ++ b /\ config h1 a /\ config h2 b.
Proof. exact hmul_concat. Qed.
Print Assumptions C08_product_configurations.

(** Two constrained spaces built with the same arguments are not equal (their constraint
    closures are distinct objects). *)
Theorem C08_equal_arguments_equal_spaces_refuted :
  exists h1 h2, mk_Fock (Some 2) 2 (Some 2) 1 = Ok h1 /\ mk_Fock (Some 2) 2 (Some 2) 2 = Ok h2 /\
    (forall s, config h1 s <-> config h2 s) /\ hilbert_eqb h1 h2 = false.
Proof. exact equal_args_witness. Qed.
Print Assumptions C08_equal_arguments_equal_spaces_refuted.

Example C08_ex :
  hpow (Spin 2 2 None) 3 = Ok (Spin 2 6 None) /\
  hmul 30 (Spin 1 2 None) (Fock 3 true 1 None) = Ok (Tensor [Spin 1 2 None; Fock 3 true 1 None]) /\
  hmul 30 (Tensor [Qubit 1; Spin 1 2 None]) (Tensor [Spin 1 3 None; Qubit 2])
    = Ok (Tensor [Qubit 1; Spin 1 5 None; Qubit 2]).
Proof. vm_compute. auto. Qed.

(** ** C09
    For distinct sites the partial trace is the space of the remaining sites. *)
Theorem C09_ptrace_removes_sites :
  forall depth h sites r, built h -> all_finite h -> (exists s, config h s) ->
  NoDup sites -> ptrace depth h sites = Ok r ->
  match r with
  | Some h' => forall t, config h' t <-> exists s, config h s /\ remove_sites sites 0 s = t
  | None => forall i, 0 <= i < Z.of_nat (n_sites h) -> In i sites
  end.
Proof. exact ptrace_removes. Qed.
Print Assumptions C09_ptrace_removes_sites.

Theorem C09_ptrace_available :
  forall depth h sites, built h -> homogeneous h -> unconstrained h -> finite_space h ->
  (forall ls N c, h <> Custom ls N c) -> NoDup sites ->
  (forall x, In x sites -> 0 <= x < Z.of_nat (n_sites h)) ->
  exists r, ptrace depth h sites = Ok r.
Proof. exact ptrace_available. Qed.
Print Assumptions C09_ptrace_available.

(** Duplicated sites are accepted and remove too many sites. *)
Theorem C09_duplicate_sites_refuted :
  ptrace 30 (Qubit 3) [0; 0] = Ok (Some (Qubit 1)) /\
  (exists s, config (Qubit 3) s /\ ~ config (Qubit 1) (remove_sites [0; 0] 0 s)).
Proof. exact ptrace_dup_witness. Qed.
Print Assumptions C09_duplicate_sites_refuted.

(** Tracing a tensor product so that two identical constrained factors remain raises. *)
Theorem C09_tensor_available_refuted :
  let f := Fock 1 true 2 (Some (1, 0%nat)) in
  ptrace 30 (Tensor [f; Qubit 1; f]) [2] = Err UnboundLocalError.
Proof. vm_compute. reflexivity. Qed.
Print Assumptions C09_tensor_available_refuted.

Example C09_ex : ptrace 30 (Tensor [Qubit 2; Spin 2 1 None; Fock 3 true 2 None]) [4; 1]
  = Ok (Some (Tensor [Qubit 1; Spin 2 1 None; Fock 3 true 1 None])).
Proof. vm_compute. reflexivity. Qed.

(** ** C10
    A flip changes exactly one site, to a different local value; every other local value
    is hit by exactly one value of the random integer. *)
Theorem C10_flip_one_site :
  forall h s i g, flippable h -> length s = n_sites h -> at_site h i g -> local_value g (nth i s 0) ->
  (forall k, 0 <= k < n_local_values g - 1 ->
     exists v, flip_state h k s (Z.of_nat i) = (upd s i v, nth i s 0) /\
               local_value g v /\ v <> nth i s 0) /\
  (forall v, local_value g v -> v <> nth i s 0 ->
     exists! k, 0 <= k < n_local_values g - 1 /\ fst (flip_state h k s (Z.of_nat i)) = upd s i v).
Proof. exact flip_state_correct. Qed.
Print Assumptions C10_flip_one_site.

(** The integer k is uniform: the u in [0,1) giving k are exactly [k/m, (k+1)/m). *)
Theorem C10_draw_uniform :
  forall u m k, (0 <= u)%Q -> (u < 1)%Q -> 0 < m ->
  (0 <= draw u m < m) /\
  (draw u m = k <-> (inject_Z k <= u * inject_Z m)%Q /\ (u * inject_Z m < inject_Z (k + 1))%Q).
Proof. exact draw_spec. Qed.
Print Assumptions C10_draw_uniform.

(** With custom local states that are not in increasing order a flip may do nothing. *)
Theorem C10_unsorted_custom_refuted :
  let h := Custom (Some [2; 0; 1]) 1 None in
  config h [0] /\ 0 <= 0 < n_local_values h - 1 /\ flip_state h 0 [0] 0 = ([0], 0).
Proof. exact flip_unsorted_witness. Qed.
Print Assumptions C10_unsorted_custom_refuted.

(** On a doubled tensor product, flipping the last column site changes site 0. *)
Theorem C10_doubled_tensor_refuted :
  let h := Doubled (Tensor [Spin 1 1 None; Fock 1 true 1 None]) in
  config h [1; 0; 1; 0] /\ flip_state h 0 [1; 0; 1; 0] 3 = ([-1; 0; 1; 0], 1).
Proof. exact flip_doubled_tensor_witness. Qed.
Print Assumptions C10_doubled_tensor_refuted.

Example C10_ex :
  flippable (Tensor [Custom (Some [-3; 0; 5]) 2 None; Spin 3 1 None]) /\
  at_site (Tensor [Custom (Some [-3; 0; 5]) 2 None; Spin 3 1 None]) 1 (Custom (Some [-3; 0; 5]) 2 None) /\
  flip_state (Tensor [Custom (Some [-3; 0; 5]) 2 None; Spin 3 1 None]) 1 [5; 0; -1] 1 = ([5; 5; -1], 0) /\
  flip_state (Doubled (Spin 1 2 (Some (0%Q, 0%nat)))) 0 [1; -1; -1; 1] 3 = ([1; -1; -1; -1], 1).
Proof.
  split; [repeat constructor; simpl; lia|].
  split; [apply at_tensor_here; apply at_homog; simpl; auto|]. vm_compute. auto.
Qed.

(** ** C11
    Fock with n_particles: the random state always exists, is a configuration, and every
    configuration can be drawn. *)
Theorem C11_fock_random_constrained :
  forall n_max N p id h, mk_Fock n_max N (Some p) id = Ok h -> (0 < N)%nat ->
  exists m, h = Fock m true N (Some (p, id)) /\
   (forall r, exists s, fock_random_constrained m N p r = Ok s /\ config h s) /\
   (forall s, config h s -> exists r, fock_random_constrained m N p r = Ok s).
Proof. exact fock_random_ok. Qed.
Print Assumptions C11_fock_random_constrained.

(** Spin with a total_sz that is a multiple of 1/2. *)
Theorem C11_spin_random_constrained_partial :
  forall s2 N sz id h m, mk_Spin s2 N (Some sz) id = Ok h -> (2 * sz == inject_Z m)%Q ->
   (forall r, exists s, spin_random_constrained s2 N sz r = Ok s /\ config h s) /\
   (forall s, config h s -> exists r, spin_random_constrained s2 N sz r = Ok s).
Proof. exact spin_random_ok. Qed.
Print Assumptions C11_spin_random_constrained_partial.

(** Spin 1/2: the results of the shuffle are exactly the configurations. *)
Theorem C11_spin_half_random_partial :
  forall N sz id h m, mk_Spin 1 N (Some sz) id = Ok h -> (2 * sz == inject_Z m)%Q ->
  forall s, config h s <-> Permutation (spin_half_unshuffled N sz) s.
Proof. exact spin_half_random_ok. Qed.
Print Assumptions C11_spin_half_random_partial.

(** The constructor accepts total_sz = 0.3 for three spins; the random states then have
    the wrong number of sites. *)
Theorem C11_spin_half_random_refuted :
  exists h, mk_Spin 1 3 (Some (3 # 10)%Q) 0 = Ok h /\ hsize h = 3%nat /\
            length (spin_half_unshuffled 3 (3 # 10)) = 2%nat.
Proof. eexists; split; [vm_compute; reflexivity|]. vm_compute. auto. Qed.
Print Assumptions C11_spin_half_random_refuted.

(** Unconstrained spaces. *)
Theorem C11_random_unconstrained :
  forall h, homogeneous h -> unconstrained h -> finite_space h ->
  (forall ks, length ks = n_sites h -> Forall (fun k => 0 <= k < n_local_values h) ks ->
     config h (random_unconstrained h ks)) /\
  (forall s, config h s ->
     exists ks, length ks = n_sites h /\ Forall (fun k => 0 <= k < n_local_values h) ks /\
                random_unconstrained h ks = s).
Proof.
  exact (fun h A B C => conj (fun ks => random_unconstrained_ok h ks A B C)
                             (fun s => random_unconstrained_onto h s A B C)).
Qed.
Print Assumptions C11_random_unconstrained.

Example C11_ex :
  mk_Fock (Some 2) 3 (Some 5) 0 = Ok (Fock 2 true 3 (Some (5, 0%nat))) /\
  fock_random_constrained 2 3 5 (fun i => i) = Ok [2; 2; 1] /\
  mk_Spin 2 3 (Some (-1)%Q) 0 = Ok (Spin 2 3 (Some ((-1)%Q, 0%nat))) /\
  spin_random_constrained 2 3 (-1)%Q (fun i => i) = Ok [0; 0; -2] /\
  spin_half_unshuffled 3 (1 # 2) = [1; 1; -1].
Proof. vm_compute. auto 10. Qed.
