(** * C51: steady states by exact diagonalisation and by the iterative solver *)
From Coq Require Import List Arith ZArith Lia String.
From Verif Require Import Base Rings ARNN_Model Steady_Model Steady_Spec Steady_Proofs.
Import ListNotations.
Open Scope nat_scope.

(** With sparse matrices the matrix that is diagonalised has the kernel of the Lindbladian.
    Missing from the full statement: dense matrices ([C51_dense_refuted]). *)
Theorem C51_sparse_partial : forall (C : cring), cring_laws C -> forall n L v, definite C ->
  kernel C n (ldagl C n true L) v <-> kernel C n L v.
Proof. exact kernel_main. Qed.
Print Assumptions C51_sparse_partial.

(** By default, the state that is returned is a steady state of trace one, if the eigenvalue
    found is zero and the eigenvector has a trace. *)
Theorem C51_default : forall (C : cring), cring_laws C -> forall M K Js v inv, definite C ->
  kernel C (M * M) (ldagl C (M * M) (default_sparse None) (lmat C M K Js)) v ->
  rmul C inv (trace C M (unflat C M v)) = r1 C ->
  trace C M (normalised C M v inv) = r1 C /\
  (forall a b, a < M -> b < M -> lrho C M K Js (normalised C M v inv) a b = r0 C).
Proof. exact result_main. Qed.
Print Assumptions C51_default.

(** The matrix-free operator acts as the matrix. *)
Theorem C51_matrix_free : forall (C : cring), cring_laws C -> forall M K Js v i, i < M * M ->
  matvec C M K Js v i = mvec C (M * M) (lmat C M K Js) v i.
Proof. exact matvec_main. Qed.
Print Assumptions C51_matrix_free.

(** The linear system handed to the iterative solver: its solutions are the steady states of
    trace one. *)
Theorem C51_iterative : forall (C : cring), cring_laws C -> forall M K Js x,
  (forall i, i < M * M + 1 -> matvec_trace C M K Js x i = target C M i) <->
  (kernel C (M * M) (lmat C M K Js) x /\ trace C M (unflat C M x) = r1 C).
Proof. exact iterative_main. Qed.
Print Assumptions C51_iterative.

Theorem C51_method : forall m,
  check_method m = if orb (String.eqb m "ed") (String.eqb m "iterative") then Ok (String.eqb m "ed") else Err ValueError.
Proof. exact method_main. Qed.
Print Assumptions C51_method.

(** A qubit that decays with rate 4 and is pumped with rate 16, without Hamiltonian:
    the jump operators are 2 |g><e| and 4 |e><g|, and -i H_nh = -1/2 sum J^dagger J. *)
Definition ex_mat (a b c d : Z) (i j : nat) : T giC :=
  match i, j with 0, 0 => (a, 0%Z) | 0, 1 => (b, 0%Z) | 1, 0 => (c, 0%Z) | 1, 1 => (d, 0%Z) | _, _ => (0, 0)%Z end.
Definition ex_K := ex_mat (-2) 0 0 (-8).
Definition ex_Js := [ex_mat 0 0 2 0; ex_mat 0 4 0 0].
Definition ex_L := lmat giC 2 ex_K ex_Js.
Definition ex_vec (a b c d : Z) (i : nat) : T giC :=
  match i with 0 => (a, 0%Z) | 1 => (b, 0%Z) | 2 => (c, 0%Z) | 3 => (d, 0%Z) | _ => (0, 0)%Z end.

(** With dense matrices the vector with eigenvalue zero, (4, 0, 0, -1), has a trace but is no
    steady state, and the steady state (4, 0, 0, 1) has not the eigenvalue zero. *)
Theorem C51_dense_refuted :
  kernel giC 4 (ldagl giC 4 false ex_L) (ex_vec 4 0 0 (-1)) /\
  trace giC 2 (unflat giC 2 (ex_vec 4 0 0 (-1))) = (3, 0)%Z /\
  ~ kernel giC 4 ex_L (ex_vec 4 0 0 (-1)) /\
  kernel giC 4 ex_L (ex_vec 4 0 0 1) /\ ~ kernel giC 4 (ldagl giC 4 false ex_L) (ex_vec 4 0 0 1).
Proof.
  split; [intros [|[|[|[|i]]]] Hi; try lia; vm_compute; reflexivity|].
  split; [vm_compute; reflexivity|].
  split; [intros H; specialize (H 0 ltac:(lia)); vm_compute in H; discriminate|].
  split; [intros [|[|[|[|i]]]] Hi; try lia; vm_compute; reflexivity|].
  intros H; specialize (H 0 ltac:(lia)); vm_compute in H; discriminate.
Qed.
Print Assumptions C51_dense_refuted.

Example C51_definite_ex : definite giC /\ definite cC.
Proof. split; [exact giC_definite|exact cC_definite]. Qed.
Example C51_sparse_ex : kernel giC 4 (ldagl giC 4 true ex_L) (ex_vec 4 0 0 1).
Proof. intros [|[|[|[|i]]]] Hi; try lia; vm_compute; reflexivity. Qed.
