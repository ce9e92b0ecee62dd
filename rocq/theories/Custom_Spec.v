(** * What a Metropolis move given by an operator should do *)
From Coq Require Import ZArith List Bool QArith Qcanon.
From Verif Require Import Base Scalar LocalOp_Spec.
Import ListNotations.
Open Scope Qc_scope.

Fixpoint total (l : list Qc) : Qc := match l with [] => 0 | x :: l' => x + total l' end.

(** A weighted list of outcomes is a way of drawing: the unit interval is cut into
    consecutive pieces (a, a+w], and a number selects the outcome of its piece. *)
Definition drawn {A} (law : list (A * Qc)) (u : Qc) (a : A) : Prop :=
  exists before w after, law = before ++ (a, w) :: after /\
    total (map snd before) < u /\ u <= total (map snd before) + w.

(** the length of the pieces that belong to [y]: its probability *)
Definition mass (law : list (list Z * Qc)) (y : list Z) : Qc :=
  total (map (fun p => if zlist_eqb (fst p) y then snd p else 0) law).

(** real matrices whose rows and columns are probabilities *)
Definition real_nonneg (z : GQ) : Prop := snd z = 0 /\ 0 <= fst z.
Definition re_entry (m : list (list GQ)) (i j : nat) : Qc := fst (nth j (nth i m []) gq0).

Record doubly_stochastic (m : list (list GQ)) (d : nat) : Prop := {
  ds_square : length m = d /\ forall r, In r m -> length r = d;
  ds_entries : forall r z, In r m -> In z r -> real_nonneg z;
  ds_rows : forall i, (i < d)%nat -> total (map (fun j => re_entry m i j) (seq 0 d)) = 1;
  ds_symmetric : forall i j, (i < d)%nat -> (j < d)%nat -> re_entry m i j = re_entry m j i
}.

(** no matrix element is so small that LocalOperator drops it *)
Definition no_tiny (m : list (list GQ)) : Prop :=
  forall r z, In r m -> In z r -> fst z = 0 \/ Q2Qc (1 # 10 ^ 6) < fst z.

(** moves: matrices with the sites they act on *)
Definition moves_ok (hs : list (list Z)) (ts : list (list (list GQ) * list nat)) : Prop :=
  Forall (fun t => snd t <> [] /\ increasing_sites (snd t) /\
                   (forall s, In s (snd t) -> (s < length hs)%nat) /\
                   (0 < local_dim hs (snd t))%nat /\
                   doubly_stochastic (fst t) (local_dim hs (snd t)) /\ no_tiny (fst t)) ts /\
  NoDup (map snd ts).

(** non-negative weights, one per move, not all zero; none given: all equal *)
Definition weights_ok (n : nat) (w : option (list Qc)) : Prop :=
  match w with
  | None => (0 < n)%nat
  | Some w => length w = n /\ (forall x, In x w -> 0 <= x) /\ 0 < total w
  end.
(** probability of move [i] *)
Definition move_weight (n : nat) (w : option (list Qc)) (i : nat) : Qc :=
  let l := match w with None => repeat 1 n | Some w => w end in
  nth i l 0 / total l.

(** probability to go from [x] to [y] with one move, and in one step *)
Definition move_prob (hs : list (list Z)) (t : list (list GQ) * list nat) (x y : list Z) : Qc :=
  fst (term_element gqS hs (fst t) (snd t) x y).
Definition step_prob (hs : list (list Z)) (ts : list (list (list GQ) * list nat))
  (w : option (list Qc)) (x y : list Z) : Qc :=
  total (map (fun i => move_weight (length ts) w i * move_prob hs (nth i ts ([], [])) x y)
             (seq 0 (length ts))).

(** [law i x] draws a configuration with the matrix elements of the row [x] of move [i] *)
Definition draws_rows (hs : list (list Z)) (ts : list (list (list GQ) * list nat))
  (law : nat -> list Z -> list (list Z * Qc)) : Prop :=
  forall i x, (i < length ts)%nat -> configuration hs x ->
    total (map snd (law i x)) = 1 /\
    (forall p, In p (law i x) -> configuration hs (fst p) /\ 0 <= snd p) /\
    (forall z, configuration hs z -> mass (law i x) z = move_prob hs (nth i ts ([], [])) x z).

(** the proposal [y] of one chain, from the two random numbers of that chain alone: a move
    drawn with its weight, then a configuration drawn with the law of that move *)
Definition proposal_ok (ts : list (list (list GQ) * list nat)) (w : option (list Qc))
  (law : nat -> list Z -> list (list Z * Qc)) (x : list Z) (u v : Qc) (y : list Z) : Prop :=
  exists i,
    drawn (map (fun i => (i, move_weight (length ts) w i)) (seq 0 (length ts))) u i /\
    drawn (law i x) v y.

(** the tolerances of np.allclose: |a - b| <= 1e-8 + 1e-5 |b|, with [B] at least |b| *)
Definition within (a b : GQ) : Prop :=
  forall B, 0 <= B -> gq_norm2 b <= B * B ->
    gq_norm2 (gq_sub a b) <= (Q2Qc (1 # 10 ^ 8) + Q2Qc (1 # 10 ^ 5) * B)
                             * (Q2Qc (1 # 10 ^ 8) + Q2Qc (1 # 10 ^ 5) * B).
