(** * Steady states of a Lindbladian (netket/exact.py 120-223 and to_linear_operator of
      netket/operator/_local_liouvillian.py 366-443)

    Matrices and vectors are functions of their indices.  The eigensolver and bicgstab are
    oracles; numbers are the elements of a commutative ring with a conjugation. *)
From Coq Require Import List Arith Bool String.
From Verif Require Import Base Rings.
Import ListNotations.
Open Scope nat_scope.

Section S.
  Variable C : cring.
  Notation "0" := (r0 C).
  Notation "1" := (r1 C).
  Infix "+" := (radd C).
  Infix "*" := (rmul C).
  Notation mat := (nat -> nat -> T C).
  Notation vec := (nat -> T C).

  Definition mmul (n : nat) (A B : mat) : mat := fun i j => fsum C n (fun k => A i k * B k j).
  Definition dagger (A : mat) : mat := fun i j => rconj C (A j i).
  Definition elementwise (A B : mat) : mat := fun i j => A i j * B i j.
  Definition mvec (n : nat) (A : mat) (v : vec) : vec := fun i => fsum C n (fun j => A i j * v j).

  (** exact.py 174-177, 183-184: [*] of sparse matrices is the matrix product, [*] of numpy
      arrays is taken element by element. *)
  Definition ldagl (n : nat) (sparse : bool) (L : mat) : mat :=
    if sparse then mmul n (dagger L) L else elementwise (dagger L) L.

  (** reshape((M, M)) and back *)
  Definition unflat (M : nat) (v : vec) : mat := fun a b => v (Nat.add (Nat.mul a M) b).
  Definition flat (M : nat) (r : mat) : vec := fun i => r (i / M) (i mod M).
  Definition trace (M : nat) (r : mat) : T C := fsum C M (fun a => r a a).

  (** 155-156, 188-192: the matrix that is diagonalised, and the normalisation of the first
      eigenvector [v]; [inv] is the inverse of its trace. *)
  Definition default_sparse (sparse : option bool) : bool := match sparse with None => true | Some b => b end.
  Definition normalised (M : nat) (v : vec) (inv : T C) : mat := fun a b => inv * unflat M v a b.

  (** _local_liouvillian.py 404-413: [K] is -i times the non-hermitian Hamiltonian. *)
  Definition lrho (M : nat) (K : mat) (Js : list mat) (rho : mat) : mat := fun a b =>
    (mmul M K rho a b + mmul M rho (dagger K) a b) +
    lsum C (map (fun J => mmul M (mmul M J rho) (dagger J) a b) Js).
  Definition matvec (M : nat) (K : mat) (Js : list mat) (v : vec) : vec := flat M (lrho M K Js (unflat M v)).
  (** 428-439, with the trace appended *)
  Definition matvec_trace (M : nat) (K : mat) (Js : list mat) (v : vec) : vec := fun i =>
    if i =? Nat.mul M M then trace M (unflat M v) else matvec M K Js v i.

  (** exact.py 202-215: the right-hand side of the iterative solver *)
  Definition target (M : nat) : vec := fun i => if i =? Nat.mul M M then 1 else 0.

  (** The Lindbladian as a matrix on vectorised density matrices, as its matrix elements are
      given by get_conn (see C25). *)
  Definition lmat (M : nat) (K : mat) (Js : list mat) : mat := fun i j =>
    let '(a, b) := (i / M, i mod M) in
    let '(c, d) := (j / M, j mod M) in
    ((if b =? d then K a c else 0) + (if a =? c then rconj C (K b d) else 0)) +
    lsum C (map (fun J : mat => J a c * rconj C (J b d)) Js).

  (** 168, 194, 221-222: the method *)
  Definition check_method (m : string) : res bool :=
    if String.eqb m "ed" then Ok true else if String.eqb m "iterative" then Ok false else Err ValueError.
End S.
