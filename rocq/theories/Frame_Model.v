(** * Model of netket/utils/model_frameworks: models written for other packages

    Python values are a small universe; functions are arguments that map a list of values to
    a result.  Keyword arguments are forwarded unchanged and left out; [method] is ignored by
    the code (jax.py lines 37-38, haiku.py line 37). *)
From Coq Require Import String List Bool Arith ZArith.
From Verif Require Import Base.
Import ListNotations.
Open Scope nat_scope.

Inductive val :=
| VNone
| VNum (z : Z)
| VArr (shape : list nat) (data : list Z)
| VTuple (l : list val)
| VDict (l : list (string * val)).

(** an element of a tuple: whether it is callable, the number of positional arguments that
    inspect.getfullargspec reports ([None]: it raises TypeError) and what calling it does *)
Record elem := mkElem { e_callable : bool; e_args : option nat; e_call : list val -> res val }.

(** a flax module: its two methods; [apply] gets the variables, rngs, whether mutable is set,
    and the inputs *)
Record linen := mkLinen {
  fl_init : val -> list val -> res val;
  fl_apply : val -> val -> bool -> list val -> res val }.

(** what users pass as a model; haiku.Transformed is a named tuple of two functions; anything
    else only has to have the two methods *)
Inductive pymodule :=
| MFlax (m : linen)
| MTuple (l : list elem)
| MTransformed (init apply : elem)
| MOther (m : linen).

(** d["params"] *)
Definition find_key (k : string) (l : list (string * val)) : res val :=
  match find (fun p => String.eqb (fst p) k) l with Some p => Ok (snd p) | None => Err KeyError end.
Definition getitem (d : val) (k : string) : res val :=
  match d with VDict l => find_key k l | _ => Err TypeError end.
(** x.shape *)
Definition shape_of (x : val) : res val :=
  match x with
  | VArr s _ => Ok (VTuple (map (fun n => VNum (Z.of_nat n)) s))
  | _ => Err AttributeError
  end.

(** the frameworks in the order in which they are registered (__init__.py line 29) *)
Inductive fw := FFlax | FJax | FHaiku | FUnknown.
Definition registered : list fw := [FFlax; FJax; FHaiku].

Definition as_tuple (m : pymodule) : option (list elem) :=
  match m with MTuple l => Some l | MTransformed i a => Some [i; a] | _ => None end.

(** JaxFramework.is_my_module (jax.py lines 63-80) *)
Definition is_jax (m : pymodule) : res bool :=
  match as_tuple m with
  | Some [i; a] =>
      if e_callable i && e_callable a
      then match e_args i, e_args a with
           | Some n, Some k => Ok (Nat.eqb n 2 && Nat.eqb k 2)
           | _, _ => Err TypeError
           end
      else Ok false
  | _ => Ok false
  end.

(** is_my_module; [hk]: haiku is installed.  The import in haiku.py line 67 raises
    ImportError, written [Exception_], otherwise; is_loaded is not used by anyone. *)
Definition is_mine (hk : bool) (f : fw) (m : pymodule) : res bool :=
  match f with
  | FFlax => Ok (match m with MFlax _ => true | _ => false end)
  | FJax => is_jax m
  | FHaiku => if hk then Ok (match m with MTransformed _ _ => true | _ => false end) else Err Exception_
  | FUnknown => Ok false
  end.

(** identify_framework (base.py lines 82-87) *)
Fixpoint identify_in (hk : bool) (fs : list fw) (m : pymodule) : res fw :=
  match fs with
  | [] => Ok FUnknown
  | f :: fs' => let? b := is_mine hk f m in if b then Ok f else identify_in hk fs' m
  end.
Definition identify (hk : bool) (m : pymodule) : res fw := identify_in hk registered m.

(** the wrapped model *)
Inductive wrapped := WFlax (m : linen) | WJax (i a : elem) | WHaiku (i a : elem) | WOther (m : linen)
                   | WTuple (l : list elem).
Definition wrap (f : fw) (m : pymodule) : res wrapped :=
  match f with
  | FJax => match as_tuple m with Some [i; a] => Ok (WJax i a) | _ => Err TypeError end
  | FHaiku => match m with MTransformed i a => Ok (WHaiku i a) | _ => Err TypeError end
  | _ => match m with
         | MFlax n => Ok (WFlax n) | MOther n => Ok (WOther n)
         | MTuple l => Ok (WTuple l) | MTransformed i a => Ok (WTuple [i; a])
         end
  end.
(** maybe_wrap_module (base.py lines 90-101) *)
Definition maybe_wrap (hk : bool) (m : pymodule) : res (fw * wrapped) :=
  let? f := identify hk m in let? w := wrap f m in Ok (f, w).

(** w.init(rngs, inputs): JaxWrapper.init (jax.py lines 29-31), HaikuWrapper.init
    (haiku.py lines 28-30), or the method of the model *)
Definition w_init (w : wrapped) (rngs : val) (xs : list val) : res val :=
  match w with
  | WFlax m | WOther m => fl_init m rngs xs
  | WJax i _ =>
      match xs with
      | [x] =>
          let? k := getitem rngs "params" in
          let? s := shape_of x in
          let? r := e_call i [k; s] in
          match r with
          | VTuple [_; v] => Ok (VDict [("params"%string, v)])
          | VTuple _ => Err ValueError
          | _ => Err TypeError
          end
      | _ => Err TypeError
      end
  | WHaiku i _ =>
      let? k := getitem rngs "params" in
      let? v := e_call i (k :: xs) in
      Ok (VDict [("params"%string, v)])
  | WTuple _ => Err AttributeError
  end.

(** w.apply(variables, inputs, rngs=, mutable=): JaxWrapper.apply (jax.py lines 33-46),
    HaikuWrapper.apply (haiku.py lines 32-44) *)
Definition w_apply (w : wrapped) (variables rngs : val) (mutable : bool) (xs : list val) : res val :=
  match w with
  | WFlax m | WOther m => fl_apply m variables rngs mutable xs
  | WJax _ a =>
      if mutable then Err ValueError
      else let? p := getitem variables "params" in e_call a (p :: xs)
  | WHaiku _ a =>
      if mutable then Err ValueError
      else let? p := getitem variables "params" in e_call a (p :: rngs :: xs)
  | WTuple _ => Err AttributeError
  end.

(** wrap_params, unwrap_params of the frameworks (base.py lines 38-45, flax.py lines 42-48,
    jax.py lines 86-92, haiku.py lines 80-86); UnknownFramework has its own unwrap_params
    (base.py lines 77-79) and inherits wrap_params *)
Definition wrap_params (f : fw) (v : val) : val :=
  match f with FFlax => v | _ => VDict [("params"%string, v)] end.
Definition unwrap_params (f : fw) (v : val) : res val :=
  match f with FJax | FHaiku => getitem v "params" | FFlax | FUnknown => Ok v end.
