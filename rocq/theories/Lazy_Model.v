(** * Lazy operator wrappers (netket/operator/_lazy.py, _abstract_operator.py) *)
From Coq Require Import ZArith List Bool.
From Verif Require Import Base Scalar LocalOp_Spec.
Import ListNotations.

Section Lazy.
Variable S : scalars.
(** is_hermitian of the concrete operator that an expression builds *)
Variable herm : expr S -> bool.

(** an operator object: a concrete LocalOperator, given by the expression that builds it, or a
    wrapper around another object (_lazy.py 47-202) *)
Inductive op := Conc (e : expr S) | Tr (p : op) | Ad (p : op) | Sq (p : op).

(** is_hermitian: _abstract_operator.py 62-65 for Transpose and Adjoint, _lazy.py 184-186 *)
Definition is_herm (o : op) : bool :=
  match o with Conc e => herm e | Tr _ | Ad _ => false | Sq _ => true end.

(** transpose(concrete=c): _local_operator.py 795-808, _lazy.py 67-68, 111-112; Squared inherits
    _abstract_operator.py 87-102.
    conjugate: _local_operator.py 810-819, _lazy.py 70-77, 114-115, 176-177; [None] is a call
    without the keyword, [Some c] is conjugate(concrete=c) *)
Fixpoint transpose (c : bool) (o : op) : res op :=
  match o with
  | Conc e => if c then Ok (Conc (Transp S e)) else Ok (Tr o)
  | Tr p => Ok p
  | Ad p => conjugate (Some c) p
  | Sq _ => if c then Err NotImplementedError else Ok (Tr o)
  end
with conjugate (c : option bool) (o : op) : res op :=
  match o with
  | Conc e => Ok (Conc (Conj S e))
  | Tr p =>
      if is_herm p then Ok p
      else match c with Some true => conjugate (Some true) p | _ => Ok (Ad p) end
  | Ad p => transpose (match c with Some true => true | _ => false end) p
  | Sq p => match c with None => Ok (Tr p) | Some _ => Err TypeError end
  end.

(** _abstract_operator.py 293-294 *)
Definition conj_ (o : op) : res op := conjugate (Some false) o.

(** the properties T and H: _abstract_operator.py 68-80, _lazy.py 79-81, 117-119, 170-182
    (Squared.T reads an attribute [c] that no operator has) *)
Definition dotT (o : op) : res op :=
  match o with Sq _ => Err AttributeError | _ => transpose false o end.
Definition dotH (o : op) : res op :=
  match o with
  | Conc e => if herm e then Ok o else Ok (Ad o)
  | Tr p => conjugate None p
  | Ad p => Ok p
  | Sq _ => Ok o
  end.

(** _concrete_matmul_: _local_operator.py 430-435; only LocalOperator has it, and it returns
    NotImplemented (modelled as TypeError) unless the argument is a LocalOperator *)
Definition concrete_matmul (a b : op) : res op :=
  match a, b with
  | Conc x, Conc y => Ok (Conc (Matmul S x y))
  | Conc _, _ => Err TypeError
  | _, _ => Err AttributeError
  end.

(** collect: _abstract_operator.py 82-85, _lazy.py 64-65, 108-109, 167-168.  [n] bounds the
    recursion; [collect] gives it more than the nesting depth. *)
Fixpoint collect_n (n : nat) (o : op) : res op :=
  match n with
  | O => Err RuntimeError
  | Datatypes.S n =>
      match o with
      | Conc _ => Ok o
      | Tr p => transpose true p
      | Ad p => let? t := transpose true p in conj_ t
      | Sq p => let? h := dotH p in let? c := collect_n n h in concrete_matmul c p
      end
  end.
Fixpoint depth (o : op) : nat :=
  match o with Conc _ => O | Tr p | Ad p | Sq p => Datatypes.S (depth p) end.
Definition collect (o : op) : res op := collect_n (depth o + 2) o.

(** __matmul__ (_abstract_operator.py 313-323), _op__matmul__ and _op__rmatmul__ of the wrappers
    (_lazy.py 40-44, 134-138, 196-197).  [same] is Python's ==, object identity. *)
Variable same : op -> op -> bool.
Definition matmul_conc (a : expr S) (b : op) : res op :=
  if same (Conc a) b && herm a then Ok (Sq (Conc a))
  else match b with
       | Conc y => Ok (Conc (Matmul S a y))
       | _ => let? c := collect b in
              match c with
              | Conc y => if same (Conc a) c && herm a then Ok (Sq (Conc a)) else Ok (Conc (Matmul S a y))
              | _ => Err TypeError
              end
       end.
Definition matmul (a b : op) : res op :=
  if same a b && is_herm a then Ok (Sq a)
  else match a with
       | Conc x => matmul_conc x b
       | Tr _ | Sq _ =>
           let? c := collect a in match c with Conc x => matmul_conc x b | _ => Err TypeError end
       | Ad p =>
           if same p b then Ok (Sq b)
           else let? c := collect a in match c with Conc x => matmul_conc x b | _ => Err TypeError end
       end.
End Lazy.
