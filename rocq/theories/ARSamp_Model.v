(** * Direct sampling of autoregressive networks (netket/sampler/autoreg.py)

    Probabilities and uniform draws are rational numbers; the random generator is an
    oracle giving one draw per site and configuration.  The network enters as a function
    from (partially sampled) configurations to the table of conditional probabilities;
    its cache is assumed not to change the values that it returns. *)
From Coq Require Import List Arith ZArith QArith Bool.
From Verif Require Import Base.
Import ListNotations.
Open Scope Q_scope.

(** p.cumsum(): [acc] is the sum of the entries before. *)
Fixpoint cumsum (acc : Q) (p : list Q) : list Q :=
  match p with
  | [] => []
  | x :: p => (acc + x) :: cumsum (acc + x) p
  end.

Definition Qgtb (r c : Q) : bool := negb (Qle_bool r c).

(** autoreg.py 39-41: the index drawn for one row of [p] with the uniform number [u];
    the last entry of the cumulative sum of an empty row does not exist. *)
Definition choice_index (p : list Q) (u : Q) : nat :=
  let p_cumsum := cumsum 0 p in
  let r := last p_cumsum 0 * u in
  length (filter (fun c => Qgtb r c) p_cumsum).

(** 42: a[indices]; jax clamps indices past the end to the last element. *)
Definition batch_choice1 (a : list Z) (p : list Q) (u : Q) : Z :=
  nth (Nat.min (choice_index p u) (length a - 1)) a 0%Z.
Definition batch_choice (a : list Z) (p : list (list Q)) (u : list Q) : list Z :=
  map (fun t => batch_choice1 a (fst t) (snd t)) (combine p u).

Section Sample.
  Variable local_states : list Z.
  (* model.conditionals: for every site of a configuration the probabilities of the
     local states *)
  Variable conditionals : list Z -> list (list Q).

  (** 97-112: scan_fun on the batch; [u] are the draws for this site. *)
  Definition scan_fun (sigma : list (list Z)) (index : nat) (u : list Q) : list (list Z) :=
    let p := map (fun s => nth index (conditionals s) []) sigma in
    let new := batch_choice local_states p u in
    map (fun t => upd (fst t) index (snd t)) (combine sigma new).

  (** jax.lax.scan over the sites. *)
  Fixpoint scan_sites (sigma : list (list Z)) (index : nat) (us : list (list Q)) : list (list Z) :=
    match us with
    | [] => sigma
    | u :: us => scan_sites (scan_fun sigma index u) (S index) us
    end.

  (** row-major reshape into rows of [n] elements *)
  Fixpoint chunks {A} (m n : nat) (l : list A) : list (list A) :=
    match m with O => [] | S m => firstn n l :: chunks m n (skipn n l) end.

  (** 95-136: _sample_chain; [buffer] holds the initial contents (zeros in the code),
      [us] the draws of the sites, each for the whole batch. *)
  Definition ar_sample_chain (n_chains chain_length : nat) (buffer : list (list Z))
      (us : list (list Q)) : list (list (list Z)) :=
    chunks chain_length n_chains (scan_sites buffer 0 us).
End Sample.

(** 118-124: the buffer of zeros. *)
Definition zero_buffer (batch n_sites : nat) : list (list Z) := repeat (repeat 0%Z n_sites) batch.
