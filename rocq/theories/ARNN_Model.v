(** * Autoregressive wave functions (netket/models/autoreg.py)

    Weights and values are complex numbers over the real numbers of the standard library
    (real weights have vanishing imaginary parts); one sample of the batch. *)
From Coq Require Import List Arith ZArith Reals Bool.
From Verif Require Import Base Rings Masked_Model.
Import ListNotations.
Open Scope R_scope.

Definition cC : cring := CRing (R * R) (0, 0) (1, 0)
  (fun a b => (fst a + fst b, snd a + snd b))
  (fun a b => (fst a * fst b - snd a * snd b, fst a * snd b + snd a * fst b))
  (fun a b => (fst a - fst b, snd a - snd b))
  (fun a => (- fst a, - snd a)) (fun a => (fst a, - snd a)).

Fixpoint exp_sum (l : list R) : R := match l with [] => 0 | x :: l => exp x + exp_sum l end.
(** jax.scipy.special.logsumexp *)
Definition logsumexp (l : list R) : R := ln (exp_sum l).

(** autoreg.py 168-174: l2_normalize, on one row of the last axis. *)
Definition l2_normalize (row : list (R * R)) : list (R * R) :=
  let c := 1 / 2 * logsumexp (map (fun z => 2 * fst z) row) in
  map (fun z => (fst z - c, snd z)) row.

(** The Hilbert spaces that _local_states_to_numbers (220-237) distinguishes; the
    argument is local_size. *)
Inductive hspace := HSpin (local_size : nat) | HFock (local_size : nat) | HOther (local_size : nat).
Definition local_size (h : hspace) : nat :=
  match h with HSpin n | HFock n | HOther n => n end.

(** 220-237; the conversion to int32 cuts off the fraction. *)
Definition local_states_to_number (h : hspace) (x : Z) : res Z :=
  match h with
  | HSpin n => Ok (Z.quot (x + Z.of_nat n - 1) 2)
  | HFock _ => Ok x
  | HOther _ => Err NotImplementedError
  end.

Definition layer_features {C} (l : layer C) : nat :=
  match l with LDense f _ _ => f | LConv f _ _ _ _ _ => f end.

Section Model.
  Variable h : hspace.
  Variable activation : R * R -> R * R.
  Variable layers : list (layer cC).

  (** 82-90 and 177-192: the assertions of setup (the number of layers given must not be
      zero) and _conditional_log_psi. *)
  Definition conditional_log_psi (inputs : list Z) : res (list (list (R * R))) :=
    match layers with
    | [] => Err AssertionError
    | _ =>
        if negb (layer_features (last layers (LDense O (fun _ _ => r0 cC) None)) =? local_size h)%nat
        then Err AssertionError
        else
          let? x := network cC activation layers (map (fun z => (IZR z, 0%R)) inputs) in
          Ok (map l2_normalize x)
    end.

  (** 195-201: _conditionals. *)
  Definition conditionals (inputs : list Z) : res (list (list R)) :=
    let? log_psi := conditional_log_psi inputs in
    Ok (map (map (fun z => exp (2 * fst z))) log_psi).

  (** One element of jnp.take_along_axis; indices out of range are not modelled. *)
  Definition take (row : list (R * R)) (i : Z) : res (R * R) :=
    if (i <? 0)%Z then Err Fault
    else match nth_error row (Z.to_nat i) with Some v => Ok v | None => Err Fault end.

  (** 204-217: _call. *)
  Definition call (inputs : list Z) : res (R * R) :=
    let? idx := sequence (map (local_states_to_number h) inputs) in
    let? log_psi := conditional_log_psi inputs in
    if negb (length log_psi =? length idx)%nat then Err ValueError
    else
      let? vals := sequence (map (fun t => take (fst t) (snd t)) (combine log_psi idx)) in
      Ok (lsum cC vals).
End Model.
