(** * Model of netket/operator/_local_operator.py: what LocalOperator(...) does with its
      arguments

    The storage of the matrices, merging and sorting are [LocalOp_Model]; here are the
    forms that [operators], [acting_on] and [dtype] may take, the numerical types and the
    order of the checks. *)
From Coq Require Import ZArith List Bool Lia.
From Verif Require Import Base Scalar Hilbert_Model LocalOp_Model.
Import ListNotations.

(** numpy dtypes that matrices come with; [I8] stands for the integers of at most 16
    bits, [I64] for the wider ones *)
Inductive dtype := DBool | I8 | I64 | F32 | F64 | C64 | C128.

Definition dtype_eqb (a b : dtype) : bool :=
  match a, b with
  | DBool, DBool | I8, I8 | I64, I64 | F32, F32 | F64, F64 | C64, C64 | C128, C128 => true
  | _, _ => false
  end.

(** np.promote_types *)
Definition promote (a b : dtype) : dtype :=
  match a, b with
  | DBool, x | x, DBool => x
  | I8, x | x, I8 => x
  | I64, I64 => I64
  | I64, F32 | F32, I64 | I64, F64 | F64, I64 => F64
  | I64, C64 | C64, I64 | I64, C128 | C128, I64 => C128
  | F32, F32 => F32
  | F32, F64 | F64, F32 | F64, F64 => F64
  | F32, C64 | C64, F32 | C64, C64 => C64
  | _, _ => C128
  end.

(** the kind: boolean, integer, floating, complex *)
Definition kind (d : dtype) : nat :=
  match d with DBool => 0 | I8 | I64 => 1 | F32 | F64 => 2 | C64 | C128 => 3 end.

(** np.can_cast(from, to, casting="same_kind"): a safe cast or a cast within a kind *)
Definition can_cast (from to : dtype) : bool := Nat.leb (kind from) (kind to).

Section Ctor.
Variable S : scalars.
Variable depth : nat.

(** One array: its dtype, its number of dimensions, and its entries when it is a matrix
    (irrelevant otherwise).  For a matrix [a_len] is the number of rows. *)
Record arr := mkArr { a_dtype : dtype; a_ndim : nat; a_mat : mat S; a_len : nat }.

(** [operators]: one array, or a Python list of arrays *)
Inductive oparg := OArr (a : arr) | OList (l : list arr).
(** an entry of [acting_on]: a number, or something with a length *)
Inductive site := SNum (s : Z) | SList (l : list Z).
Inductive actarg := ANum (s : Z) | ASeq (l : list site).

Definition has_len (s : site) : bool := match s with SList _ => true | SNum _ => false end.

(** lines 237-238: a number is put in a list *)
Definition act_seq (a : actarg) : list site :=
  match a with ANum s => [SNum s] | ASeq l => l end.

(** line 240 *)
Definition is_nested (l : list site) : bool := existsb has_len l.

(** lines 242-244: [acting_on = [acting_on]] for a list of numbers *)
Definition num_of (s : site) : Z := match s with SNum z => z | SList _ => 0%Z end.

(** np.asarray of a list of arrays of one shape (a list of arrays of different shapes
    gives an array of objects with one dimension: no matrix either) *)
Definition stack (l : list arr) : arr :=
  match l with
  | [] => mkArr F64 1 [] 0
  | a :: l' => mkArr (fold_left (fun d b => promote d (a_dtype b)) l' (a_dtype a))
                     (Datatypes.S (a_ndim a)) [] (length l)
  end.

(** iterating over an array (line 246): its slices have one dimension less *)
Definition rows (a : arr) : list arr := repeat (mkArr (a_dtype a) (a_ndim a - 1) [] 0) (a_len a).

(** lines 237-246 *)
Definition normalise (ops : oparg) (act : actarg) : list arr * list site :=
  let l := act_seq act in
  if is_nested l then
    (match ops with OArr a => rows a | OList os => os end, l)
  else
    ([match ops with OArr a => a | OList os => stack os end], [SList (map num_of l)]).

(** lines 248-252.  The promotion with the further operators is computed and thrown away
    (line 252). *)
Definition choose_dtype (dt : option dtype) (ops : list arr) : res dtype :=
  match dt with
  | Some d => Ok d
  | None => match ops with [] => Err IndexError | a :: _ => Ok (promote (a_dtype a) F32) end
  end.

Definition zdup (l : list Z) : bool :=
  (fix go l := match l with [] => false | x :: l' => existsb (Z.eqb x) l' || go l' end) l.

(** _add_operator (lines 509-569).  Negative sites pass the test of lines 519-520 and end
    in an error at lines 607-611 at the latest; the model reports that error also when
    an earlier statement (lines 155, 586) raises another one. *)
Definition add_arr (hs : list (list Z)) (d : dtype) (o : lop S) (a : arr) (act : list Z)
  : res (lop S) :=
  if negb (can_cast (a_dtype a) d) then Err ValueError
  else if zdup act then Err ValueError
  else if existsb (fun s => Z.leb (Z.of_nat (length hs)) s) act then Err ValueError
  else if negb (Nat.eqb (a_ndim a) 2) then Err ValueError
  else if forallb (forallb (fun k => negb (kbige S k))) (a_mat a) then Ok o
  else if existsb (fun s => Z.ltb s 0) act then Err ValueError
  else add_operator S depth hs o (a_mat a) (map Z.to_nat act).

(** lines 266-268: zip stops at the shorter list; len() of a number is a TypeError;
    entries without sites are skipped *)
Fixpoint add_all (hs : list (list Z)) (d : dtype) (o : lop S) (ops : list arr)
  (acts : list site) : res (lop S) :=
  match ops, acts with
  | a :: ops', s :: acts' =>
      match s with
      | SNum _ => Err TypeError
      | SList [] => add_all hs d o ops' acts'
      | SList (x :: l) =>
          let? o' := add_arr hs d o a (x :: l) in
          add_all hs d o' ops' acts'
      end
  | _, _ => Ok o
  end.

(** LocalOperator.__init__ (lines 198-268): the dtype and the operator *)
Definition local_operator (hs : list (list Z)) (ops : oparg) (act : actarg) (const : K S)
  (dt : option dtype) : res (dtype * lop S) :=
  if negb (forallb is_sorted hs) then Err ValueError
  else
    let (os, acts) := normalise ops act in
    let? d := choose_dtype dt os in
    let? o := add_all hs d (mkLop S [] [] [] [] const (kbige S const) true) os acts in
    Ok (d, o).

(** conjugate (lines 809-818) and transpose(concrete=True) (lines 795-807) give the new
    constructor the matrices of the operator, which all have its dtype, and no dtype *)
Definition rebuilt_dtype (d : dtype) (o : lop S) : dtype :=
  match lo_ops S o with
  | [] => promote (a_dtype (stack [])) F32
  | _ => promote d F32
  end.
End Ctor.

Arguments mkArr {S}.
Arguments a_dtype {S}.
Arguments a_ndim {S}.
Arguments a_mat {S}.
Arguments a_len {S}.
Arguments OArr {S}.
Arguments OList {S}.
