(** * C66, C67: the neural density matrix and the machines on hidden units *)
From Coq Require Import List Arith ZArith Reals Lra Lia Permutation.
From Verif Require Import Base Rings ARNN_Model ToArray_Model Estim_Model Estim_Proofs
  Group_Model Group_Spec Symm_Model Symm_Spec Ansatz_Model Ansatz_Spec Ansatz_Proofs.
Import ListNotations.
Open Scope R_scope.

(** ** C66: for all real parameters the neural density matrix is one *)
Theorem C66_hermitian : forall n alpha beta p, real_params p ->
  hermitian real_vec (fun sr sc => amplitude (ndm log_cosh n alpha beta p sr sc)).
Proof. exact ndm_hermitian. Qed.
Print Assumptions C66_hermitian.

Theorem C66_positive : forall n alpha beta p, real_params p ->
  positive_semidefinite real_vec (fun sr sc => amplitude (ndm log_cosh n alpha beta p sr sc)).
Proof. exact ndm_psd. Qed.
Print Assumptions C66_positive.

(** every probability is positive, so that the state can always be normalised *)
Theorem C66_diagonal : forall n alpha beta p, real_params p -> forall s, real_vec s ->
  0 < fst (amplitude (ndm log_cosh n alpha beta p s s)) /\ snd (amplitude (ndm log_cosh n alpha beta p s s)) = 0.
Proof. exact ndm_diagonal. Qed.
Print Assumptions C66_diagonal.

(** parameters that are all different from zero *)
Example C66_ex :
  let k := fun i j => (1 + INR (i + 2 * j), 0) in
  let b := Some (fun j => (2 + INR j, 0)) in
  real_params (NdmParams k b b k b b k k b) /\ real_vec (fun i => (INR i, 0)).
Proof.
  cbv zeta. assert (H : real_opt (Some (fun j => (2 + INR j, 0)))) by (intros b [= <-] j; reflexivity).
  assert (K : real_kernel (fun i j => (1 + INR (i + 2 * j), 0))) by (intros i j; reflexivity).
  split; [repeat (split; [assumption|]); assumption|intros i; reflexivity].
Qed.

(** ** C67: amplitudes of the machines *)
Theorem C67_log_cosh : forall z, amplitude (log_cosh z) = ccosh z.
Proof. exact log_cosh_amplitude. Qed.
Print Assumptions C67_log_cosh.

(** of a real number: finite, real, and within ln 2 of the absolute value *)
Theorem C67_log_cosh_real : forall x, exists v, log_cosh (x, 0) = Some (v, 0) /\ Rabs x - ln 2 <= v <= Rabs x.
Proof. exact log_cosh_bounds. Qed.
Print Assumptions C67_log_cosh_real.

Theorem C67_rbm : forall n m W b a s,
  amplitude (rbm log_cosh n m W b a s)
  = rmul cC (cexp (visible n a s)) (cprod m (fun j => ccosh (theta n W b s j))).
Proof. exact rbm_main. Qed.
Print Assumptions C67_rbm.

(** modulus and phase: |psi| from the first layer, and the phase is the logarithm of the second *)
Theorem C67_modphase : forall n m W b W' b' s,
  real_kernel W -> real_opt b -> real_kernel W' -> real_opt b' -> real_vec s ->
  amplitude (rbm_modphase log_cosh n m W b W' b' s)
  = rmul cC (rprod m (fun j => cosh (fst (theta n W b s j))), 0)
            (cexp (0, ln (rprod m (fun j => cosh (fst (theta n W' b' s j)))))).
Proof. exact modphase_main. Qed.
Print Assumptions C67_modphase.

(** the symmetrised machine does not see a symmetry, whatever the activation *)
Theorem C67_symm : forall act n rows features kernel hb vb x g,
  permutation_group n rows -> length kernel = (n * features)%nat -> length x = n -> In g rows ->
  rbm_symm act rows features kernel hb vb (permuted (0, 0) g x) = rbm_symm act rows features kernel hb vb x.
Proof. exact rbm_symm_main. Qed.
Print Assumptions C67_symm.

(** Jastrow: twice the documented exponent *)
Theorem C67_jastrow_partial : forall n W x,
  jastrow n W x = rscal 2 (fsum cC n (fun i => fsum cC n (fun j => rmul cC (rmul cC (x i) (W i j)) (x j)))).
Proof. exact jastrow_main. Qed.
Print Assumptions C67_jastrow_partial.
Theorem C67_jastrow_refuted : exists n W x,
  cexp (jastrow n W x) <> cexp (fsum cC n (fun i => fsum cC n (fun j => rmul cC (rmul cC (x i) (W i j)) (x j)))).
Proof. exact jastrow_documented. Qed.
Print Assumptions C67_jastrow_refuted.

(** the one-hot machine tells configurations with values 0 .. n_classes - 1 apart ... *)
Theorem C67_multival_separates : forall n k m x y,
  (forall i, (i < n)%nat -> (0 <= x i < Z.of_nat k)%Z) -> (exists i, (i < n)%nat /\ x i <> y i) ->
  exists W hb vb, amplitude (rbm_multival log_cosh n k m W hb vb x) <> amplitude (rbm_multival log_cosh n k m W hb vb y).
Proof. exact multival_separates. Qed.
Print Assumptions C67_multival_separates.
(** ... but not the values -3 and -1 of a spin 3/2, for any parameters and any number of classes *)
Theorem C67_multival_refuted : forall n k m act W hb vb,
  rbm_multival act n k m W hb vb (fun _ => -3)%Z = rbm_multival act n k m W hb vb (fun _ => -1)%Z.
Proof. exact multival_spin. Qed.
Print Assumptions C67_multival_refuted.

Example C67_ex :
  (forall i, (i < 2)%nat -> (0 <= (fun i => Z.of_nat i) i < Z.of_nat 3)%Z)
  /\ (exists i, (i < 2)%nat /\ (fun i => Z.of_nat i) i <> (fun _ => 2%Z) i)
  /\ permutation_group 3 (perms (PG [EId; EPerm [1;2;0]; EPerm [2;0;1]]%nat 3)).
Proof.
  split; [intros i Hi; cbn beta; lia|]. split; [exists 0%nat; split; [lia|discriminate]|].
  exact rot3_group.
Qed.
