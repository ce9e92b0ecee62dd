(** * C45: periodic matrix product states *)
From Coq Require Import List Arith ZArith Permutation Lia.
From Verif Require Import Base Rings MPS_Model MPS_Spec MPS_Proofs.
Import ListNotations.
Open Scope nat_scope.

(** C45: the amplitude is the trace of the product over the sites of the tensors selected
    by the local states, the tensors repeating with the period. *)
Theorem C45_amplitude :
  forall C, cring_laws C -> forall a s d L symperiod b k p ns,
  (0 < s)%Z -> 2 <= d -> period L symperiod = Ok p -> kernel_shape C p d k ->
  length ns = L -> Forall (fun n => n < d) ns ->
  mps C (evenly a s d) L symperiod b k (map (fun n => (a + s * Z.of_nat n)%Z) ns)
  = Ok (mtrace C b (map (fun i => tensor C k (i mod p) (nth i ns 0)) (seq 0 L))).
Proof. exact mps_formula. Qed.
Print Assumptions C45_amplitude.

(** C45: translating the configuration by any multiple of the period leaves the amplitude
    unchanged, for every Hilbert space, kernel and configuration. *)
Theorem C45_translation :
  forall C, cring_laws C -> forall local_states L symperiod b k x p q d,
  period L symperiod = Ok p -> q * p <= L -> kernel_shape C p d k ->
  mps C local_states L symperiod b k (rotated (q * p) x) = mps C local_states L symperiod b k x.
Proof. exact (fun C H ls L sy b k x p q d P Q S => mps_translation C H ls L sy b k x p q P Q (params_length C b k p d S)). Qed.
Print Assumptions C45_translation.

(** C45: a period is accepted exactly if it is positive and divides the number of sites. *)
Theorem C45_period :
  forall L z, match period L (Some z) with
  | Ok p => (0 < z)%Z /\ Z.of_nat p = z /\ (z | Z.of_nat L)%Z
  | Err _ => ~ ((0 < z)%Z /\ (z | Z.of_nat L)%Z)
  end.
Proof. exact period_iff. Qed.
Print Assumptions C45_period.

(** C45: with diagonal tensors the amplitude is a sum of products of numbers, ... *)
Theorem C45_diagonal :
  forall C, cring_laws C -> forall a s d L symperiod b k p ns,
  (0 < s)%Z -> 2 <= d -> period L symperiod = Ok p -> kernel_shape C p d (KDiag k) ->
  length ns = L -> Forall (fun n => n < d) ns ->
  mps C (evenly a s d) L symperiod b (KDiag k) (map (fun n => (a + s * Z.of_nat n)%Z) ns)
  = Ok (fsum C b (fun e => cprod C (map (fun i =>
      radd C (nth e (nth (nth i ns 0) (nth (i mod p) k []) []) (r0 C)) (r1 C)) (seq 0 L)))).
Proof. exact mps_diag. Qed.
Print Assumptions C45_diagonal.

(** ... and with period one it does not depend on the order of the sites at all. *)
Theorem C45_diagonal_permutation :
  forall C, cring_laws C -> forall a s d L b k ns ns',
  (0 < s)%Z -> 2 <= d -> kernel_shape C 1 d (KDiag k) ->
  length ns = L -> Forall (fun n => n < d) ns -> Permutation ns ns' ->
  mps C (evenly a s d) L (Some 1%Z) b (KDiag k) (map (fun n => (a + s * Z.of_nat n)%Z) ns')
  = mps C (evenly a s d) L (Some 1%Z) b (KDiag k) (map (fun n => (a + s * Z.of_nat n)%Z) ns).
Proof. exact mps_diag_permutation. Qed.
Print Assumptions C45_diagonal_permutation.

(** Concrete case: four spins, period two, bond dimension two.  Translation by two sites
    keeps the amplitude, translation by one does not. *)
Definition ex_k : kernel zC := @KFull zC
  [ [ [[0;1];[2;3]]; [[1;1];[0;2]] ]; [ [[3;0];[1;1]]; [[2;5];[1;0]] ] ]%Z.
Definition ex_x : list Z := [-1;1;1;1]%Z.
Example ex_shape : kernel_shape zC 2 2 ex_k /\ period 4 (Some 2%Z) = Ok 2 /\ evenly (-1) 2 2 = [-1;1]%Z.
Proof. split; [split; [reflexivity|repeat constructor]|split; reflexivity]. Qed.
Example ex_values :
  mps zC [-1;1]%Z 4 (Some 2%Z) 2 ex_k ex_x = mps zC [-1;1]%Z 4 (Some 2%Z) 2 ex_k (rotated 2 ex_x)
  /\ mps zC [-1;1]%Z 4 (Some 2%Z) 2 ex_k ex_x <> mps zC [-1;1]%Z 4 (Some 2%Z) 2 ex_k (rotated 1 ex_x)
  /\ mps zC [-1;1]%Z 4 (Some 0%Z) 2 ex_k ex_x = Err ZeroDivisionError
  /\ mps zC [-1;1;2]%Z 4 (Some 2%Z) 2 ex_k ex_x = Err AssertionError.
Proof. repeat split; vm_compute; try reflexivity. discriminate. Qed.
