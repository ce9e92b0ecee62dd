(** * The documented Ising and Bose-Hubbard Hamiltonians *)
From Coq Require Import ZArith List Bool.
From Verif Require Import Base Scalar LocalOp_Spec Special_Model.
Import ListNotations.

Section Spec.
Variable S : scalars.
Notation K := (K S).

(** N spins 1/2 *)
Definition spins (n : nat) : list (list Z) := repeat [(-1)%Z; 1%Z] n.

Definition edges_ok (n : nat) (edges : list (nat * nat)) : Prop :=
  Forall (fun e => fst e < n /\ snd e < n /\ fst e <> snd e)%nat edges.

Definition scaled (c : K) (m : list (list K)) : list (list K) := map (map (kmul S c)) m.

(** sigma^x, and sigma^z on two sites *)
Definition pauli_x : list (list K) := [[k0 S; k1 S]; [k1 S; k0 S]].
Definition pauli_zz : list (list K) :=
  let p := k1 S in let m := kopp S (k1 S) in let o := k0 S in
  [[p; o; o; o]; [o; m; o; o]; [o; o; m; o]; [o; o; o; p]].

(** -h sum_i sx_i + J sum_(i,j) sz_i sz_j *)
Definition ising_terms (n : nat) (edges : list (nat * nat)) (h J : K)
  : list (list (list K) * list nat) :=
  map (fun i => (scaled (kopp S h) pauli_x, [i])) (seq 0 n) ++
  map (fun e => (scaled J pauli_zz, [fst e; snd e])) edges.

(** bosons: occupation numbers 0..n_max *)
Definition occupations (n : nat) (nmax : Z) : list (list Z) := repeat (zrange (nmax + 1)) n.

Variable rt : Z -> K.

(** <x| b^dagger_i b_j |y> *)
Definition hop (i j : nat) (x y : list Z) : K :=
  if same_elsewhere [i; j] x y && Z.eqb (nth i x 0%Z) (nth i y 0 + 1)%Z &&
     Z.eqb (nth j y 0%Z) (nth j x 0 + 1)%Z
  then kmul S (rt (nth i x 0%Z)) (rt (nth j y 0%Z)) else k0 S.

(** -J sum (b^dag_i b_j + h.c.) + V sum n_i n_j + Uh sum n_i (n_i - 1) - mu sum n_i *)
Definition bh_element (n : nat) (edges : list (nat * nat)) (Uh V J mu : K) (x y : list Z) : K :=
  let num i := kz S (nth i x 0%Z) in
  kadd S
    (if zlist_eqb x y
     then kadd S (sum S (map (fun i => ksub S (kmul S Uh (kmul S (num i) (ksub S (num i) (k1 S))))
                                              (kmul S mu (num i))) (seq 0 n)))
                 (sum S (map (fun e => kmul S V (kmul S (num (fst e)) (num (snd e)))) edges))
     else k0 S)
    (sum S (map (fun e => kopp S (kmul S J (kadd S (hop (fst e) (snd e) x y)
                                                   (hop (snd e) (fst e) x y)))) edges)).

(** every site is an end of an edge, or at least the last one is *)
Definition last_site_used (n : nat) (edges : list (nat * nat)) : Prop :=
  (0 < n)%nat /\ exists e, In e edges /\ (Datatypes.S (fst e) = n \/ Datatypes.S (snd e) = n).
End Spec.
