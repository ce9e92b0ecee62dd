(** * Hashable partial functions (netket/jax/utils.py 269-298) and their users

    A Python function is its code object together with the values it captured (closure
    variables and default arguments).  Values are integers, floats (here with integer value),
    strings of text by number, and other objects compared by [==] as given by a number. *)
From Coq Require Import List Arith ZArith Bool.
From Verif Require Import Base.
Import ListNotations.
Open Scope Z_scope.

Inductive value := VInt (z : Z) | VFloat (z : Z) | VObj (id : nat).
(** Python [==] *)
Definition veqb (a b : value) : bool :=
  match a, b with
  | VInt x, VInt y | VFloat x, VFloat y | VInt x, VFloat y | VFloat x, VInt y => x =? y
  | VObj i, VObj j => Nat.eqb i j
  | _, _ => false
  end.
Fixpoint leqb (a b : list value) : bool :=
  match a, b with
  | [], [] => true
  | x :: a, y :: b => veqb x y && leqb a b
  | _, _ => false
  end.
(** dictionaries, in insertion order; keys by number *)
Definition dict := list (nat * value).
Fixpoint dget (k : nat) (d : dict) : option value :=
  match d with [] => None | (k', v) :: d => if Nat.eqb k k' then Some v else dget k d end.
Definition deqb (a b : dict) : bool :=
  Nat.eqb (length a) (length b) &&
  forallb (fun e => match dget (fst e) b with Some v => veqb (snd e) v | None => false end) a.

(** [f_code = None]: a callable without [__code__] (a jitted function, a callable object). *)
Record pyfun := PyFun { f_code : option nat; f_captured : list value }.
Record hpartial := HPartial { p_func : pyfun; p_args : list value; p_kw : dict }.

(** 281-287: __eq__ between two HashablePartial objects; [and] stops at the first false
    operand, and reading [__code__] of [self] comes first *)
Definition hp_eq (a b : hpartial) : res bool :=
  match f_code (p_func a), f_code (p_func b) with
  | Some c, Some c' => Ok (Nat.eqb c c' && leqb (p_args a) (p_args b) && deqb (p_kw a) (p_kw b))%bool
  | _, _ => Err AttributeError
  end.

(** Everything that is hashed: code, arguments, set of items.  [hv] is Python's hash of a
    value and [hs] that of a frozenset given as the list of the hashes of its elements. *)
Section Hash.
  Variable hv : value -> Z.
  Variable hcode : nat -> Z.
  Variable htuple : list Z -> Z.
  Variable hitem : nat -> Z -> Z.
  Variable hset : list Z -> Z.
  (** 289-295 *)
  Definition hp_hash (a : hpartial) : res Z :=
    match f_code (p_func a) with
    | None => Err AttributeError
    | Some c => Ok (htuple [hcode c; htuple (map hv (p_args a)); hset (map (fun e => hitem (fst e) (hv (snd e))) (p_kw a))])
    end.
End Hash.

(** Calling: what a function computes depends on its code, on what it captured and on its
    arguments. *)
Section Call.
  Variable result : Type.
  Variable run_code : option nat -> list value -> list value -> dict -> result.
  Definition dupdate (kw kw' : dict) : dict :=
    kw' ++ filter (fun e => match dget (fst e) kw' with None => true | Some _ => false end) kw.
  (** functools.partial.__call__ *)
  Definition hp_call (a : hpartial) (args : list value) (kw : dict) : result :=
    run_code (f_code (p_func a)) (f_captured (p_func a)) (p_args a ++ args) (dupdate (p_kw a) kw).

  (** jax.jit with the function as a static argument: compiled functions are looked up with
      [==] among the keys seen before (each with equal hash). *)
  Definition cache := list (hpartial * hpartial).   (* key, the function that was traced *)
  Definition is_eq (a b : hpartial) : bool := match hp_eq a b with Ok b => b | Err _ => false end.
  Fixpoint lookup (c : cache) (k : hpartial) : option hpartial :=
    match c with [] => None | (k', f) :: c => if is_eq k' k then Some f else lookup c k end.
  Definition jit_call (c : cache) (k : hpartial) (args : list value) (kw : dict) : result * cache :=
    match lookup c k with
    | Some f => (hp_call f args kw, c)
    | None => (hp_call k args kw, c ++ [(k, k)])
    end.
  Fixpoint jit_calls (c : cache) (l : list (hpartial * list value * dict)) : list result :=
    match l with
    | [] => []
    | (k, args, kw) :: l => let '(r, c') := jit_call c k args kw in r :: jit_calls c' l
    end.
End Call.

(** Code objects of the lambdas in the library. *)
Definition code_log_pdf : nat := 1.
Definition code_init : nat := 2.
Definition code_apply : nat := 3.
Definition code_apply_diagonal : nat := 4.

(** sampler/base.py 173-178: Sampler.log_pdf; the power is captured, the function is an
    argument of the partial *)
Definition sampler_log_pdf (machine_pow : Z) (apply_fun : nat) : hpartial :=
  HPartial (PyFun (Some code_log_pdf) [VInt machine_pow]) [VObj apply_fun] [].
(** vqs/mc_state.py 159-164 and mc_mixed_state.py 133 *)
Definition state_init_fun (model : nat) : hpartial := HPartial (PyFun (Some code_init) []) [VObj model] [].
Definition state_apply_fun (model : nat) : hpartial := HPartial (PyFun (Some code_apply) []) [VObj model] [].
Definition state_diagonal_fun (apply_fun : nat) : hpartial :=
  HPartial (PyFun (Some code_apply_diagonal) []) [VObj apply_fun] [].

(** What log_pdf computes: power times the real part of the log-amplitude. *)
Definition run_log_pdf (log_amp : nat -> list value -> Z) (code : option nat) (captured args : list value) (kw : dict) : Z :=
  match captured, args with
  | [VInt p], VObj f :: rest => p * log_amp f rest
  | _, _ => 0
  end.
