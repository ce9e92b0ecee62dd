(** * Vocabulary for the parallel tempering properties *)
From Coq Require Import List Arith ZArith QArith Bool.
From Verif Require Import Base PT_Model.
Import ListNotations.
Open Scope nat_scope.

(** The position paired with [i]: even positions with their right neighbour, or with
    their left neighbour, cyclically. *)
Definition partner (n order i : nat) : nat :=
  if Nat.even (i + order) then (i + 1) mod n else (i + n - 1) mod n.

(** Outcomes have the shapes that the code draws. *)
Definition outcome_ok (n : nat) (o : outcome) : Prop :=
  o_order o < 2 /\ length (o_accept o) = n /\ length (o_pairs o) = n / 2.
Definition op_ok (n : nat) (op : pt_op) : Prop :=
  match op with PReset => True | PNext os => Forall (outcome_ok n) os end.

Definition accepted_in (b : list bool) : nat := length (filter (fun x => x) b).

(** Number of accepted moves since the last reset, [a] before the operations. *)
Fixpoint accepted_since (ops : list pt_op) (a : nat) : nat :=
  match ops with
  | [] => a
  | PReset :: ops => accepted_since ops 0
  | PNext os :: ops =>
      accepted_since ops (a + list_sum (map (fun o => accepted_in (o_accept o)) os))
  end.

(** Number of sweeps since the last reset, [a] before the operations. *)
Fixpoint sweeps_since (ops : list pt_op) (a : nat) : nat :=
  match ops with
  | [] => a
  | PReset :: ops => sweeps_since ops 0
  | PNext os :: ops => sweeps_since ops (a + length os)
  end.
