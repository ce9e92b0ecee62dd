(** * C46: full state vectors on any number of MPI ranks *)
From Coq Require Import List Arith Reals Lra Lia.
From Verif Require Import Base ToArray_Model ToArray_Spec ToArray_Proofs.
Import ListNotations.
Open Scope R_scope.

(** C46: without normalisation the amplitudes come in index order, on every number of
    ranks up to twice the dimension. *)
Theorem C46_order :
  forall n m log_psi, (0 < n)%nat -> (0 < m)%nat -> (m <= 2 * n)%nat ->
  to_array true n m log_psi false = Ok (map (amplitude_of log_psi) (seq 0 n)).
Proof. exact array_plain. Qed.
Print Assumptions C46_order.

(** C46: with normalisation the vector is a positive multiple of the amplitudes and has
    norm one, provided all ranks but the last one are full.  Missing: the other numbers
    of ranks, for which the claim is false (below). *)
Theorem C46_normalised_partial :
  forall n m log_psi, (0 < n)%nat -> (0 < m)%nat -> one_padded_rank n m -> exists psi,
  to_array true n m log_psi true = Ok psi /\ norm_squared psi = 1 /\
  exists c, 0 < c /\ psi = scaled c (map (amplitude_of log_psi) (seq 0 n)).
Proof. exact array_main. Qed.
Print Assumptions C46_normalised_partial.

(** C46: that condition is necessary: whenever a vector is returned, it has norm one
    exactly if all ranks but the last one are full. *)
Theorem C46_normalised_iff :
  forall n m log_psi psi, (0 < n)%nat -> (0 < m)%nat ->
  to_array true n m log_psi true = Ok psi -> (norm_squared psi = 1 <-> one_padded_rank n m).
Proof. exact array_iff. Qed.
Print Assumptions C46_normalised_iff.

(** C46: more ranks than twice the dimension raise. *)
Theorem C46_error :
  forall n m log_psi normalize, (0 < n)%nat -> (0 < m)%nat ->
  (to_array true n m log_psi normalize = Err ValueError <-> (2 * n < m)%nat).
Proof. exact array_error. Qed.
Print Assumptions C46_error.

(** C46 as stated is false: five states on four ranks (any wave function). *)
Theorem C46_normalised_refuted :
  exists n m, (0 < n)%nat /\ (0 < m)%nat /\ forall log_psi, exists psi,
  to_array true n m log_psi true = Ok psi /\ norm_squared psi <> 1.
Proof.
  exists 5%nat, 4%nat. split; [lia|]. split; [lia|]. intros log_psi.
  destruct (array_normalised 5 4 log_psi) as [E _]; [lia|lia|lia|]. eexists. split; [exact E|].
  intros N. apply (array_iff 5 4 log_psi _ ltac:(lia) ltac:(lia) E) in N.
  unfold one_padded_rank in N. cbn in N. lia.
Qed.
Print Assumptions C46_normalised_refuted.

(** C46: the density matrix holds the amplitudes row by row and is divided by its trace,
    so that its diagonal adds up to one. *)
Theorem C46_density_matrix :
  forall L m log_psi rho, (0 < L)%nat -> (0 < m)%nat -> (m <= 2 * (L * L))%nat ->
  to_matrix true L m log_psi false = Ok rho ->
  (forall i j, (i < L)%nat -> (j < L)%nat -> entry_of rho i j = amplitude_of log_psi (i * L + j)) /\
  (diagonal_sum L rho <> (0, 0) -> exists rho' c, to_matrix true L m log_psi true = Ok rho' /\
     diagonal_sum L rho' = (1, 0) /\
     forall i j, (i < L)%nat -> (j < L)%nat -> entry_of rho' i j = times c (entry_of rho i j)).
Proof. exact matrix_spec. Qed.
Print Assumptions C46_density_matrix.

(** Concrete cases: one rank and even splits always qualify; so do five states on three
    ranks; five states on four ranks do not. *)
Example padded_ranks :
  one_padded_rank 7 1 /\ one_padded_rank 8 4 /\ one_padded_rank 5 3 /\ ~ one_padded_rank 5 4
  /\ states_per_rank 5 3 = [[0;1];[2;3];[4;0]]%nat /\ states_per_rank 5 4 = [[0;1];[2;3];[4;0];[1;2]]%nat.
Proof. unfold one_padded_rank. cbn. repeat split; lia. Qed.
(** The constant density matrix of one site with two states has trace 2. *)
Example matrix_inhabited : exists rho, to_matrix true 2 1 (fun _ => (0, 0)) false = Ok rho /\ diagonal_sum 2 rho = (2, 0).
Proof.
  unfold to_matrix. cbn [negb]. rewrite array_plain by lia. eexists. split; [reflexivity|].
  cbn [bind Nat.mul Nat.add seq map diagonal_sum].
  unfold entry_of, amplitude_of. cbn. rewrite exp_0, cos_0, sin_0. f_equal; lra.
Qed.
