(** * Model of netket/legacy/machine/torch.py: machines made from torch modules

    Exact real arithmetic.  A torch module is the list of its parameters; its outputs and
    the derivatives that autograd computes are arguments.  The output has two columns, the
    real and the imaginary part.  Vectors of parameters have one axis. *)
From Coq Require Import String List Bool Arith Reals.
From Verif Require Import Base.
Import ListNotations.
Open Scope nat_scope.

(** a parameter of the module: its name, whether it is trainable, its entries (view(-1)) *)
Record param := mkParam { p_name : string; p_grad : bool; p_data : list R }.
Definition tmodule := list param.
Definition cpx : Type := (R * R)%type.

(** _get_differentiable_parameters, _get_number_parameters (lines 11-18) *)
Definition trainable (m : tmodule) : list param := filter p_grad m.
Definition count (m : tmodule) : nat := fold_right plus 0 (map (fun p => length (p_data p)) (trainable m)).

(** the machine keeps the number of parameters it counted when it was made (line 25) *)
Record machine := mkMachine { t_module : tmodule; t_npar : nat }.
Definition new (m : tmodule) : machine := mkMachine m (count m).

(** parameters (lines 35-44) *)
Definition parameters (t : machine) : list cpx :=
  map (fun x => (x, 0%R)) (flat_map p_data (trainable (t_module t))).

(** the setter (lines 58-76): imaginary parts are dropped (with a warning), the length is
    compared with the number kept, and consecutive pieces are copied; a piece of another
    length than the parameter does not occur when the count is right, [Err RuntimeError] is
    torch's error otherwise *)
Fixpoint assign (m : tmodule) (v : list R) : res tmodule :=
  match m with
  | [] => Ok []
  | p :: m' =>
      if p_grad p then
        let k := length (p_data p) in
        if Nat.eqb (length (firstn k v)) k then
          let? r := assign m' (skipn k v) in Ok (mkParam (p_name p) true (firstn k v) :: r)
        else Err RuntimeError
      else let? r := assign m' v in Ok (p :: r)
  end.
Definition set_parameters (t : machine) (v : list cpx) : res machine :=
  if negb (Nat.eqb (length v) (t_npar t)) then Err ValueError
  else let? m := assign (t_module t) (map fst v) in Ok (mkMachine m (t_npar t)).

(** save and load (lines 50-56), state_dict (lines 186-192): every parameter, trainable or
    not (buffers are not modelled); load_state_dict copies by name and is strict about
    missing and unexpected names; the file is the dictionary that was saved, and what torch
    has copied before it raises is not modelled *)
Definition state_dict (t : machine) : list (string * list R) :=
  map (fun p => (p_name p, p_data p)) (t_module t).
Definition load (t : machine) (d : list (string * list R)) : res machine :=
  if negb (Nat.eqb (length d) (length (t_module t))) then Err RuntimeError
  else
    let? m := sequence (map (fun p =>
                match find (fun e => String.eqb (fst e) (p_name p)) d with
                | Some e => if Nat.eqb (length (snd e)) (length (p_data p))
                            then Ok (mkParam (p_name p) (p_grad p) (snd e)) else Err RuntimeError
                | None => Err RuntimeError
                end) (t_module t)) in
    Ok (mkMachine m (t_npar t)).

(** ** Derivatives *)
Definition cconj (z : cpx) : cpx := (fst z, - snd z)%R.
Definition cmul (a b : cpx) : cpx := (fst a * fst b - snd a * snd b, fst a * snd b + snd a * fst b)%R.
Definition cadd (a b : cpx) : cpx := (fst a + fst b, snd a + snd b)%R.
Fixpoint rsum (n : nat) (f : nat -> R) : R := match n with 0 => 0%R | S n' => (rsum n' f + f n')%R end.
Fixpoint csum (n : nat) (f : nat -> cpx) : cpx := match n with 0 => (0, 0)%R | S n' => cadd (csum n' f) (f n') end.

Section Der.
(** the derivative of the real (imaginary) output for sample [n] by parameter [k] *)
Variables dre dim : nat -> nat -> R.

(** der_log without BackPACK (lines 120-140): one call of autograd.grad per sample and output *)
Definition der_log (ns np : nat) : list (list cpx) :=
  map (fun n => map (fun k => (dre n k, dim n k)) (seq 0 np)) (seq 0 ns).

(** _der_log_backpack (lines 96-118): BatchGrad gives, for the sum of one output over the
    samples, the contribution of every sample *)
Definition batch_grad (d : nat -> nat -> R) (ns np : nat) : list (list R) :=
  map (fun n => map (d n) (seq 0 np)) (seq 0 ns).
Definition der_log_backpack (ns np : nat) : list (list cpx) :=
  map (fun rows => combine (fst rows) (snd rows)) (combine (batch_grad dre ns np) (batch_grad dim ns np)).

(** y.backward(vecj): the derivative of the sum of vecj * y is added to what p.grad holds;
    zero_grad() clears it; gradient() reads it (lines 162-169) *)
Definition backward (ns : nat) (vecj : nat -> R * R) (grad : nat -> R) : nat -> R :=
  fun k => (grad k + rsum ns (fun n => fst (vecj n) * dre n k + snd (vecj n) * dim n k))%R.
Definition zero_grad (grad : nat -> R) : nat -> R := fun _ => 0%R.
Definition gradient (np : nat) (grad : nat -> R) : list R := map grad (seq 0 np).

(** vector_jacobian_prod (lines 142-184) with return_jacobian (first) and without (second,
    which starts from the [grad] that earlier calls left and returns what it leaves);
    every trainable parameter is used by the module, so that p.grad is not None *)
Definition entry (j : list (list cpx)) (n k : nat) : cpx := nth k (nth n j []) (0, 0)%R.
Definition vjp_stored (ns np : nat) (vec : nat -> cpx) (conjugate : bool) : list cpx :=
  let jac := der_log ns np in
  let out := map (fun k => csum ns (fun n => cmul (vec n) (cconj (entry jac n k)))) (seq 0 np) in
  if conjugate then out else map cconj out.
Definition vjp_direct (ns np : nat) (vec : nat -> cpx) (conjugate : bool) (grad : nat -> R)
  : list cpx * (nat -> R) :=
  let g0 := zero_grad grad in
  let g1 := backward ns (fun n => (fst (vec n), snd (vec n))) g0 in
  let re := gradient np g1 in
  let g2 := zero_grad g1 in
  let vecj := fun n => (snd (vec n), - fst (vec n))%R in
  let vecj := if conjugate then vecj else fun n => (fst (vecj n) * -1, snd (vecj n) * -1)%R in
  let g3 := backward ns vecj g2 in
  let im := gradient np g3 in
  (combine re im, zero_grad g3).
End Der.

(** TorchLogCosh.forward (lines 211-215), softplus(z) = ln (1 + exp z) *)
Definition softplus (z : R) : R := ln (1 + exp z).
Definition torch_log_cosh (x : R) : R := (- x + softplus (2 * x))%R.
