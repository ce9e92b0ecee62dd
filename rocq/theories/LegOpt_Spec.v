(** * What the numpy optimizers are expected to do *)
From Coq Require Import List Arith ZArith Bool Reals.
From Verif Require Import Base LegOpt_Model.
Import ListNotations.
Open Scope R_scope.
Open Scope nat_scope.

(** Sum of f 0, ..., f (n-1). *)
Fixpoint sumR (n : nat) (f : nat -> R) : R := match n with O => 0%R | S n => (sumR n f + f n)%R end.
Definition sumN (n : nat) (f : nat -> num) : num := (sumR n (fun i => fst (f i)), sumR n (fun i => snd (f i))).

(** Entry [k] of the gradient given to update number [t] (counted from 0). *)
Definition entry (l : list num) (k : nat) : num := nth k l (0, 0)%R.
Definition grad_at (gs : list arr) (t k : nat) : num := entry (a_vals (nth t gs (Arr DReal []))) k.

(** A sequence of gradients of the right length and type for the parameters: complex gradients
    are for complex parameters only, and the parameters are not integers. *)
Definition fits (p : arr) (g : arr) : Prop := size g = size p /\ (a_dt g = DCpx -> a_dt p = DCpx).
Definition suited (p : arr) (gs : list arr) : Prop := a_dt p <> DInt /\ Forall (fits p) gs.

(** [path t] are the parameters after [t] updates: no update fails, the array that was passed
    is the one that holds the new parameters, and its type and length stay. *)
Definition follows (o : opt) (p : arr) (gs : list arr) (path : nat -> list num) : Prop :=
  path 0 = a_vals p /\
  forall t, t <= length gs ->
    length (path t) = size p /\
    exists o', run o p (firstn t gs) = (o', Arr (a_dt p) (path t), Ok tt).

(** Exponentially weighted average of x 0, ..., x t: sum_i (1 - b) b^(t - i) x_i. *)
Definition ema (b : R) (t : nat) (x : nat -> R) : R := sumR (S t) (fun i => (1 - b) * b ^ (t - i) * x i)%R.
Definition emaN (b : R) (t : nat) (x : nat -> num) : num := (ema b t (fun i => fst (x i)), ema b t (fun i => snd (x i))).

(** New parameter from the old one by subtracting [c] times [d]. *)
Definition moved (p : num) (c : R) (d : num) : num := (fst p - c * fst d, snd p - c * snd d)%R.

(** The largest of the numbers f 0, ..., f t and eps. *)
Definition largest (eps : R) (t : nat) (f : nat -> R) (u : R) : Prop :=
  (eps <= u)%R /\ (forall i, i <= t -> (f i <= u)%R) /\ (u = eps \/ exists i, i <= t /\ u = f i).

(** AmsGrad's second moment, as in the documentation. *)
Fixpoint ams (b2 : R) (t : nat) (x : nat -> R) : R :=
  match t with
  | O => Rmax 0 ((1 - b2) * x 0%nat)%R
  | S t' => Rmax (ams b2 t' x) (b2 * ams b2 t' x + (1 - b2) * x t)%R
  end.

(** What a caller sees of a history: the array and whether an exception left. *)
Definition observed (r : opt * arr * res unit) : arr * res unit := (snd (fst r), snd r).

(** An optimizer after any history of successful updates, on arrays of length [n] and type [d]
    with gradients that fit them, and resets. *)
Inductive used (o : opt) (n : nat) (d : dtype) : opt -> Prop :=
| used_new : used o n d o
| used_update : forall o1 g p o2 p2 q, used o n d o1 -> size p = n -> a_dt p = d -> fits p g ->
    update o1 g p = (o2, p2, Ok q) -> used o n d o2
| used_reset : forall o1 o2, used o n d o1 -> reset o1 = (o2, Ok tt) -> used o n d o2.

(** Updates through a wrapped jax optimizer: before each update the user may change the
    parameters (by any function), and hands the result to [update]. *)
Section Wrap.
  Variables S P G : Type.
  Variable update_fun : nat -> G -> S -> S.
  Variable params_fun : S -> P.
  Fixpoint wrap_run (w : wrap S) (p : P) (l : list (G * (P -> P))) : P :=
    match l with
    | [] => p
    | (g, f) :: l => let '(w, q) := wrap_update S P G update_fun params_fun w g (f p) in wrap_run w q l
    end.
  (** the jax optimizer's own sequence of states *)
  Fixpoint jax_steps (i : nat) (l : list G) (s : S) : S :=
    match l with [] => s | g :: l => jax_steps (Datatypes.S i) l (update_fun i g s) end.
End Wrap.
