(** * What density matrices are expected to be *)
From Coq Require Import List Arith Reals.
From Verif Require Import Base Rings ARNN_Model ToArray_Model Estim_Model Ansatz_Model Ansatz_Spec LegDm_Model.
Import ListNotations.
Open Scope R_scope.

(** Entry, and sum of the diagonal ones *)
Definition rho_of (m : machine) (a b : config) : cpx := amplitude (m a b).
Definition trace_of (m : machine) (states : list config) : cpx := lsum cC (map (fun s => rho_of m s s) states).
Definition at_pos (states : list config) (i : nat) : config := nth i states [].
(** The machine of a network that takes a row and a column of [n] quantum numbers *)
Definition as_machine (f : list R -> option (list R) -> res logval) : machine :=
  fun a b => match f a (Some b) with Ok l => l | Err _ => None end.
Definition sized (n : nat) (x : config) : Prop := length x = n.
