(** * Properties of the reductions over MPI ranks and of the version check *)
From Coq Require Import String Ascii List ZArith NArith Bool Lia.
From Verif Require Import Base MpiPrim_Model MpiPrim_Spec.
From Verif Require MpiPrim_Red MpiPrim_Final.
Import ListNotations.
Open Scope nat_scope.

(** C106.  On two ranks or more, with arguments of [n] elements that are contiguous writable
    arrays of any shape, or numbers and lists, every rank gets the elementwise reduction over
    all ranks; an array passed holds it afterwards, and no other memory changes. *)
Theorem C106_reduce : forall A (junk : A) op n ranks, 2 <= length ranks -> Forall (fit n) ranks ->
  exists l, reduced junk op ranks = Ok l /\
    Forall2 (fun r vm => is_sum junk op n ranks (fst vm) /\ stored junk op n ranks r (snd vm)) ranks l.
Proof. exact MpiPrim_Red.reduced_fit. Qed.
Print Assumptions C106_reduce.

(** C106.  The mean is that reduction divided by the number of ranks; the array passed is
    left with the sum, not with the mean. *)
Theorem C106_mean : forall A (junk : A) op over n ranks, 2 <= length ranks -> Forall (fit n) ranks ->
  exists l, mpi_mean junk op over ranks = Ok l /\
    Forall2 (fun r vm => (exists s, is_sum junk op n ranks s /\ fst vm = map (fun a => over a (length ranks)) s) /\ stored junk op n ranks r (snd vm)) ranks l.
Proof. exact MpiPrim_Red.mean_fit. Qed.
Print Assumptions C106_mean.

(** C106.  Arrays with equally spaced elements that are not contiguous (such as x[::2]), and
    arrays that cannot be written, are refused. *)
Theorem C106_refuses : forall A (junk : A) op ranks, 2 <= length ranks ->
  Exists (fun r => match snd r with
                   | Array v => (2 <= size v /\ exists s, spaced s v /\ s <> 1%Z) \/ (consecutive v /\ writable v = false)
                   | Other _ _ => False
                   end) ranks ->
  reduced junk op ranks = Err ValueError.
Proof. exact MpiPrim_Red.reduced_refuses. Qed.
Print Assumptions C106_refuses.

(** C106 fails: for all other arrays (such as a transposed matrix) nothing is reduced and
    nothing is reported: every rank gets its own values back. *)
Theorem C106_lost : forall A (junk : A) op n ranks, 2 <= length ranks ->
  Forall (fun r => match snd r with Array v => size v = n /\ forall s, ~ spaced s v | Other _ _ => False end) ranks ->
  reduced junk op ranks = Ok (map (fun r => (content junk r, fst r)) ranks).
Proof. exact MpiPrim_Red.reduced_lost. Qed.
Print Assumptions C106_lost.
Theorem C106_transposed_refuted : exists ranks l,
  Forall (fun r : list Z * arg Z => exists v, snd r = Array v /\ size v = 4 /\ writable v = true) ranks /\ length ranks = 2 /\
  reduced 0%Z Z.add ranks = Ok l /\ Exists (fun vm => ~ is_sum 0%Z Z.add 4 ranks (fst vm)) l.
Proof. exact MpiPrim_Final.transposed. Qed.
Print Assumptions C106_transposed_refuted.

(** C106.  On one rank everything is returned as it is. *)
Theorem C106_one : forall A (junk : A) op r,
  reduced junk op [r] = Ok [(values junk (fst (asarray (fst r) (snd r))) (snd (asarray (fst r) (snd r))), fst (asarray (fst r) (snd r)))].
Proof. exact MpiPrim_Red.reduced_one. Qed.
Print Assumptions C106_one.

(** C106.  Broadcasts give every rank the value of the root, and refuse a root that is not a
    rank; a gather gives every rank the values of all ranks in order. *)
Theorem C106_bcast : forall X (xs : list X) root x, 2 <= length xs -> (0 <= root)%Z -> nth_error xs (Z.to_nat root) = Some x ->
  mpi_bcast root xs = Ok (repeat x (length xs)) /\ mpi_bcast_jax root xs = Ok (repeat x (length xs)).
Proof. exact @MpiPrim_Final.bcast_main. Qed.
Print Assumptions C106_bcast.
Theorem C106_bcast_refuses : forall X (xs : list X) root, 2 <= length xs -> (root < 0 \/ Z.of_nat (length xs) <= root)%Z ->
  (exists e, mpi_bcast root xs = Err e) /\ (exists e, mpi_bcast_jax root xs = Err e).
Proof. exact @MpiPrim_Final.bcast_refuses. Qed.
Print Assumptions C106_bcast_refuses.
Theorem C106_gather : forall X (xs : list X), 2 <= length xs -> mpi_allgather xs = repeat (Listed xs) (length xs).
Proof. exact @MpiPrim_Final.gather_main. Qed.
Print Assumptions C106_gather.

(** C106 fails on one rank: any root is accepted (by mpi_bcast only), and a gather gives the
    value itself instead of a list of one. *)
Theorem C106_one_root_refuted : forall X (x : X) root, mpi_bcast root [x] = Ok [x] /\ (root <> 0%Z -> mpi_bcast_jax root [x] = Err AssertionError).
Proof. exact @MpiPrim_Final.one_root. Qed.
Print Assumptions C106_one_root_refuted.
Theorem C106_one_gather_refuted : forall X (x : X), mpi_allgather [x] = [Itself x] /\ mpi_allgather [x] <> [Listed [x]].
Proof. exact @MpiPrim_Final.one_gather. Qed.
Print Assumptions C106_one_gather_refuted.

(** C106.  Versions are compared number by number, three numbers at most, whatever follows
    them; an older mpi4jax is rejected and no other. *)
Theorem C106_version : forall ns ms s t, ns <> [] -> ms <> [] -> suffix s -> suffix t ->
  (older (firstn 3 ns) (firstn 3 ms) -> check_version (dotted ns ++ s)%string (dotted ms ++ t)%string = Err Exception_) /\
  (~ older (firstn 3 ns) (firstn 3 ms) -> check_version (dotted ns ++ s)%string (dotted ms ++ t)%string = Ok tt).
Proof. exact MpiPrim_Final.check_main. Qed.
Print Assumptions C106_version.

(** A matrix, a list of the same size, and a row of a larger matrix *)
Example C106_reduce_case :
  let ranks := [([1; 2; 3; 4; 5], Array (View 1 [(2%nat, 2); (1%nat, 7); (2%nat, 1)] true)); ([0], Other [2%nat; 2%nat] [10; 20; 30; 40])]%Z in
  Forall (fit 4) ranks /\
  reduced 0%Z Z.add ranks = Ok [([12; 23; 34; 45], [1; 12; 23; 34; 45]); ([12; 23; 34; 45], [0; 12; 23; 34; 45])]%Z.
Proof. split; [|vm_compute; reflexivity]. apply Forall_cons; [|apply Forall_cons; [|apply Forall_nil]]; cbv; repeat split; (reflexivity || discriminate || lia). Qed.
Example C106_refuses_case :
  let v := View 0 [(2, 2%Z)] true in
  spaced 2 v /\ reduced 0%Z Z.add [([1; 2; 3], Array v); ([1; 2; 3], Array v)]%Z = Err ValueError.
Proof. split; vm_compute; reflexivity. Qed.
Example C106_version_case :
  check_version "0.3.1.dev4" "0.3.1" = Ok tt /\ check_version "0.2.11" "0.3.1" = Err Exception_ /\ check_version "0.10" "0.3.1" = Ok tt /\
  check_version "v1.0" "0.3.1" = Err ValueError /\ dotted [0; 3; 1]%N = "0.3.1"%string /\ suffix ".dev4" /\ older [0; 2; 11]%N [0; 3; 1]%N.
Proof.
  repeat (split; [vm_compute; reflexivity|]). split; [right; right; exists "d"%char, "ev4"%string; split; reflexivity|]. right. split; [reflexivity|]. left. reflexivity.
Qed.
