(** * Property C38: direct autoregressive sampling *)
From Coq Require Import List Arith ZArith QArith Lia.
From Verif Require Import Base ARSamp_Model ARSamp_Spec ARSamp_Proofs.
Import ListNotations.
Open Scope Q_scope.

(** Every draw selects a valid index, and the index selected is the one whose interval
    contains the draw. *)
Theorem C38_choice :
  forall p u, weights p -> draw u ->
    (choice_index p u < length p)%nat /\
    forall i, (i < length p)%nat -> (choice_index p u = i <-> selects p i u).
Proof. exact (fun p u Hw Hu => conj (choice_lt p u Hw Hu) (fun i Hi => choice_spec p u i Hw Hu Hi)). Qed.
Print Assumptions C38_choice.

(** The interval of index [i] lies in [0,1] and its length is the probability of [i]. *)
Theorem C38_interval_length :
  forall p i, weights p -> (i < length p)%nat ->
    upper p i - lower p i == probability p i /\ 0 <= lower p i /\ upper p i <= 1.
Proof. exact length_is_probability. Qed.
Print Assumptions C38_interval_length.

(** Whole configurations: with an autoregressive network, the configuration [sigma] (of
    local-state indices [js]) is the sample of row [b] exactly if, for every site, the
    draw of that site lies in the interval of its local state among the conditional
    probabilities of [sigma].  Hence the probability of [sigma] is the product of its
    conditional probabilities. *)
Theorem C38_configuration :
  forall loc cond n n_chains chain_length buffer us b js,
    NoDup loc -> autoregressive n cond -> proper n loc cond ->
    length buffer = (chain_length * n_chains)%nat -> Forall (fun s => length s = n) buffer ->
    length us = n ->
    Forall (fun u => length u = (chain_length * n_chains)%nat /\ Forall draw u) us ->
    (b < chain_length * n_chains)%nat -> length js = n ->
    Forall (fun j => (j < length loc)%nat) js ->
    let out := concat (ar_sample_chain loc cond n_chains chain_length buffer us) in
    let sigma := map (fun j => nth j loc 0%Z) js in
    nth b out [] = sigma <->
    forall i, (i < n)%nat ->
      selects (nth i (cond sigma) []) (nth i js O) (nth b (nth i us []) 0).
Proof. exact sample_main. Qed.
Print Assumptions C38_configuration.

(** Shape and range of the samples. *)
Theorem C38_samples_valid :
  forall loc cond n n_chains chain_length buffer us,
    proper n loc cond ->
    length buffer = (chain_length * n_chains)%nat -> Forall (fun s => length s = n) buffer ->
    length us = n ->
    Forall (fun u => length u = (chain_length * n_chains)%nat /\ Forall draw u) us ->
    let out := ar_sample_chain loc cond n_chains chain_length buffer us in
    length out = chain_length /\ Forall (fun r => length r = n_chains) out /\
    Forall (Forall (fun s => length s = n /\ Forall (fun x => In x loc) s)) out.
Proof. exact sample_valid. Qed.
Print Assumptions C38_samples_valid.

(** "The result does not depend on the initial contents" of the buffer. *)
Theorem C38_buffer_irrelevant :
  forall loc cond n n_chains chain_length b1 b2 us,
    NoDup loc -> autoregressive n cond -> proper n loc cond ->
    length b1 = (chain_length * n_chains)%nat -> Forall (fun s => length s = n) b1 ->
    length b2 = (chain_length * n_chains)%nat -> Forall (fun s => length s = n) b2 ->
    length us = n ->
    Forall (fun u => length u = (chain_length * n_chains)%nat /\ Forall draw u) us ->
    ar_sample_chain loc cond n_chains chain_length b1 us
    = ar_sample_chain loc cond n_chains chain_length b2 us.
Proof. exact buffer_irrelevant. Qed.
Print Assumptions C38_buffer_irrelevant.

(** An index of probability zero is never selected, except possibly by the draw 0. *)
Theorem C38_zero_probability_partial :
  forall p u, weights p -> 0 < u -> u < 1 -> 0 < nth (choice_index p u) p 0.
Proof. exact positive_index. Qed.
Print Assumptions C38_zero_probability_partial.

(** The draw 0, which jax.random.uniform can return, selects the first local state even
    if its probability is zero. *)
Theorem C38_zero_probability_refuted :
  exists p u, weights p /\ draw u /\ nth (choice_index p u) p 0 == 0.
Proof.
  exists [0; 1], 0. repeat split; try (repeat constructor; discriminate); vm_compute; congruence.
Qed.
Print Assumptions C38_zero_probability_refuted.

(** A concrete case: two spins, the second equal to the first with probability 3/4. *)
Definition ex_cond (s : list Z) : list (list Q) :=
  [[1 # 3; 2 # 3]; if Z.eqb (nth 0 s 0%Z) 1 then [1 # 4; 3 # 4] else [3 # 4; 1 # 4]].
Example C38_ex :
  NoDup [-1; 1]%Z /\ autoregressive 2 ex_cond /\ proper 2 [-1; 1]%Z ex_cond /\
  ar_sample_chain [-1; 1]%Z ex_cond 1 2 (zero_buffer 2 2) [[1 # 2; 1 # 4]; [7 # 8; 4 # 5]]
  = [[[1; 1]]; [[-1; 1]]]%Z.
Proof.
  split; [repeat constructor; cbn; intuition discriminate|].
  split.
  { intros s t i Hs Ht Hi E. destruct i as [|[|i]]; [reflexivity| |lia].
    destruct s as [|x s]; [discriminate|]. destruct t as [|y t]; [discriminate|].
    cbn in E. injection E as ->. reflexivity. }
  split.
  { intros s i Hs Hi. destruct i as [|[|i]]; [| |lia]; cbn [nth ex_cond].
    - split; [reflexivity|]. repeat split; repeat constructor; discriminate.
    - destruct (Z.eqb (nth 0 s 0%Z) 1); (split; [reflexivity|]); repeat split; repeat constructor; discriminate. }
  vm_compute. reflexivity.
Qed.
