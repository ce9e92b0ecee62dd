(** * Callbacks (netket/callbacks)

    Floating-point numbers are rationals, the infinities and NaN, compared and subtracted
    as IEEE numbers without rounding.  The clock is an input. *)
From Coq Require Import List ZArith QArith Bool.
From Verif Require Import Base.
Import ListNotations.
Open Scope Z_scope.

Inductive fl := Fin (q : Q) | PInf | NInf | NaN.
Definition fle (a b : fl) : bool :=
  match a, b with
  | NaN, _ | _, NaN => false
  | NInf, _ | _, PInf => true
  | PInf, _ | _, NInf => false
  | Fin a, Fin b => Qle_bool a b
  end.
Definition fgt (a b : fl) : bool :=
  match a, b with
  | NaN, _ | _, NaN => false
  | _, _ => negb (fle a b)
  end.
Definition fsub (a : fl) (b : Q) : fl :=
  match a with Fin a => Fin (a - b) | a => a end.

(** callbacks/earlystopping.py 24-39.  A patience that is no integer acts like the next
    integer. *)
Record early := Early { min_delta : Q; patience : Z; baseline : option fl }.
Record early_state := EState { best_val : fl; best_iter : Z }.
Definition early_init : early_state := EState PInf 0.

(** 39-64; [loss] is the real part of the monitored statistic. *)
Definition early_call (c : early) (s : early_state) (step : Z) (loss : fl) : bool * early_state :=
  let s := if fle loss (best_val s) then EState loss step else s in
  if match baseline c with Some b => fle loss b | None => false end then (false, s)
  else if (patience c <=? step - best_iter s) && fgt loss (fsub (best_val s) (min_delta c)) then (false, s)
  else (true, s).

(** The answers to a sequence of calls. *)
Fixpoint early_calls (c : early) (s : early_state) (l : list (Z * fl)) : list bool :=
  match l with
  | [] => []
  | (step, loss) :: l => let (b, s) := early_call c s step loss in b :: early_calls c s l
  end.

(** callbacks/timeout.py 21-58; [None] is the initial time of a new or reset object.  The
    clock is read once when the object starts, later twice; the second reading counts. *)
Definition timeout_new (timeout : Z) : res (option Z) :=
  if 0 <? timeout then Ok None else Err AssertionError.
Definition timeout_call (timeout : Z) (init : option Z) (t1 t2 : Z) : bool * option Z :=
  match init with
  | None => (true, Some t1)
  | Some t0 => (negb (timeout <=? t2 - t0), init)
  end.
Fixpoint timeout_calls (timeout : Z) (init : option Z) (l : list (Z * Z)) : list bool :=
  match l with
  | [] => []
  | (t1, t2) :: l => let (b, i) := timeout_call timeout init t1 t2 in b :: timeout_calls timeout i l
  end.
