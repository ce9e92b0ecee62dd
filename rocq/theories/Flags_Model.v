(** * Configuration flags (netket/utils/config_flags.py)

    The environment is a function from names to strings; [parse_int] is python's int of a
    string.  Strings are bytes: str.lower acts on the ASCII letters.  A dictionary is a
    list of pairs in order of insertion. *)
From Coq Require Import String Ascii List ZArith Bool.
From Verif Require Import Base.
Import ListNotations.
Open Scope string_scope.
Open Scope list_scope.

Inductive ftype := TBool | TInt | TOther.
(** Values of flags, and the arguments of update. *)
Inductive value := VBool (b : bool) | VInt (z : Z) | VStr (s : string).

Definition dict (A : Type) := list (string * A).
Fixpoint get {A} (d : dict A) (k : string) : option A :=
  match d with
  | [] => None
  | (k', a) :: d => if (k' =? k)%string then Some a else get d k
  end.
Fixpoint put {A} (d : dict A) (k : string) (a : A) : dict A :=
  match d with
  | [] => [(k, a)]
  | (k', b) :: d => if (k' =? k)%string then (k', a) :: d else (k', b) :: put d k a
  end.

Definition lower_char (c : ascii) : ascii :=
  let n := nat_of_ascii c in
  if ((65 <=? n) && (n <=? 90))%nat then ascii_of_nat (n + 32) else c.
Fixpoint lower (s : string) : string :=
  match s with EmptyString => EmptyString | String c s => String (lower_char c) (lower s) end.
Definition str_in (s : string) (l : list string) : bool := existsb (String.eqb s) l.

Section Flags.
  Variable env : string -> option string.
  Variable parse_int : string -> option Z.

  (** str(default); the numeral of an integer other than 0 and 1 spells no truth value and
      is written "int" *)
  Definition str_of (v : value) : string :=
    match v with
    | VBool b => if b then "True" else "False"
    | VInt z => if (z =? 1)%Z then "1" else if (z =? 0)%Z then "0" else "int"
    | VStr s => s
    end.
  (** 20-36 *)
  Definition bool_env (varname : string) (default : value) : res bool :=
    let val := match env varname with Some v => v | None => str_of default end in
    let val := lower val in
    if str_in val ["y"; "yes"; "t"; "true"; "on"; "1"] then Ok true
    else if str_in val ["n"; "no"; "f"; "false"; "off"; "0"] then Ok false
    else Err ValueError.
  (** 39-41; [int] of the default, which need not be a string *)
  Definition to_int (v : value) : res Z :=
    match v with
    | VStr s => match parse_int s with Some z => Ok z | None => Err ValueError end
    | VInt z => Ok z
    | VBool b => Ok (if b then 1%Z else 0%Z)
    end.
  Definition int_env (varname : string) (default : value) : res Z :=
    match env varname with Some s => to_int (VStr s) | None => to_int default end.
  (** bool(x) *)
  Definition truth (v : value) : bool :=
    match v with VBool b => b | VInt z => negb (z =? 0)%Z | VStr s => negb (s =? "")%string end.
  (** 44-50 *)
  Definition get_env (varname : string) (t : ftype) (default : value) : res value :=
    match t with
    | TInt => let? z := int_env varname default in Ok (VInt z)
    | TBool => let? b := bool_env varname default in Ok (VBool b)
    | TOther => Err TypeError
    end.

  (** 61-67 *)
  Record config := Config { values : dict value; types : dict ftype; editable : dict bool }.
  Definition empty : config := Config [] [] [].
  (** 68-77: the exception comes with the state it leaves behind *)
  Definition define (c : config) (name : string) (t : ftype) (default : value) (runtime : bool) : option exn * config :=
    match get (values c) name with
    | Some _ => (Some KeyError, c)
    | None =>
        let c := Config (values c) (put (types c) name t) (put (editable c) name runtime) in
        match get_env name t default with
        | Err e => (Some e, c)
        | Ok v => (None, Config (put (values c) name v) (types c) (editable c))
        end
    end.
  (** 53-58, 80-84 *)
  Definition flags (c : config) (name : string) : res value :=
    match get (values c) name with Some v => Ok v | None => Err KeyError end.
  (** 86-94 *)
  Definition convert (t : ftype) (v : value) : res value :=
    match t with
    | TBool => Ok (VBool (truth v))
    | TInt => let? z := to_int v in Ok (VInt z)
    | TOther => Err TypeError   (* not modelled: [define] has failed for such a type *)
    end.
  Definition update (c : config) (name : string) (v : value) : option exn * config :=
    match get (types c) name with
    | None => (Some KeyError, c)
    | Some t => match convert t v with
                | Err e => (Some e, c)
                | Ok w => (None, Config (put (values c) name w) (types c) (editable c))
                end
    end.

  Inductive op := Define (name : string) (t : ftype) (default : value) (runtime : bool) | Update (name : string) (v : value).
  Definition step (c : config) (o : op) : option exn * config :=
    match o with Define n t d r => define c n t d r | Update n v => update c n v end.
  Fixpoint run (c : config) (ops : list op) : config :=
    match ops with [] => c | o :: ops => run (snd (step c o)) ops end.
End Flags.
