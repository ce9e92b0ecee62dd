(** * The tensorboard logger (netket/logging/tensorboard.py)

    The logged data are trees.  [Compound t]: an object with a method to_compound (whose
    second result is [t]); [HasDict t]: one with to_dict; [Cplx re im]: an instance of
    python's complex; [Leaf number v]: anything else, [number] if it is an instance of
    numbers.Number.  The writer is the list of its calls add_scalar. *)
From Coq Require Import String Ascii List Bool DecimalString Decimal.
From Verif Require Import Base.
Import ListNotations.
Open Scope string_scope.
Open Scope list_scope.

Section TB.
  Variable V : Type.
  Inductive tree :=
  | TNone
  | TList (l : list tree)
  | TTuple (l : list tree)
  | TDict (l : list (string * tree))
  | Compound (t : tree)
  | HasDict (t : tree)
  | Cplx (re im : V)
  | Leaf (number : bool) (v : V).

  (** str(i) *)
  Definition show (i : nat) : string := NilEmpty.string_of_uint (Nat.to_uint i).

  (** 20-61; the second test for a list is never reached, so that the fields of a
      namedtuple are numbered like a tuple's; [data] is appended to.  [number] of a part of
      a complex number is true. *)
  Fixpoint tree_log (t : tree) (root : string) (data : list (string * (bool * V))) {struct t} : list (string * (bool * V)) :=
    let items := fix items (i : nat) (l : list tree) (data : list (string * (bool * V))) {struct l} :=
      match l with
      | [] => data
      | v :: l => items (S i) l (tree_log v (root ++ "/" ++ show i)%string data)
      end in
    match t with
    | TNone => data
    | TList l => items O l data
    | TTuple l => items O l data
    | TDict l =>
        (fix entries (l : list (string * tree)) (data : list (string * (bool * V))) {struct l} :=
           match l with
           | [] => data
           | (k, v) :: l => entries l (tree_log v (root ++ "/" ++ k)%string data)
           end) l data
    | Compound t => tree_log t root data
    | HasDict t => tree_log t root data
    | Cplx re im =>
        let data := data ++ [((root ++ "/re")%string, (true, re))] in
        data ++ [((root ++ "/im")%string, (true, im))]
    | Leaf b v => data ++ [(root, (b, v))]
    end.

  (** key[1:] *)
  Definition drop1 (s : string) : string := match s with EmptyString => EmptyString | String _ s => s end.
  (** 123-133: the calls add_scalar(tag, value, step) *)
  Definition tb_call (writer : list (string * V * nat)) (step : nat) (item : tree) : list (string * V * nat) :=
    let data := tree_log item "" [] in
    writer ++ flat_map (fun kv => let '(k, (number, v)) := kv in if number : bool then [(drop1 k, v, step)] else []) data.
  Fixpoint tb_run (writer : list (string * V * nat)) (calls : list (nat * tree)) : list (string * V * nat) :=
    match calls with [] => writer | (step, item) :: calls => tb_run (tb_call writer step item) calls end.
End TB.
Arguments TNone {V}. Arguments TList {V}. Arguments TTuple {V}. Arguments TDict {V}. Arguments Compound {V}.
Arguments HasDict {V}. Arguments Cplx {V}. Arguments Leaf {V}.
