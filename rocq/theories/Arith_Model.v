(** * Model of +, -, *, @, / and the in-place forms between operators of different classes

    netket/operator/_local_operator.py (LocalOperator and its subclass GraphOperator),
    _hamiltonian.py (SpecialHamiltonian: Ising, BoseHubbard), _pauli_strings.py
    (PauliStrings, which defines none of them) and Python numbers, with Python's protocol
    for binary operators.  What LocalOperator computes for two LocalOperators or a number
    is C14 - C16; here an operator carries the matrix it stands for.  Lazy wrappers as
    operands are C24; numerical types that forbid an in-place update (lines 331-334, 350-353,
    401-404) are not modelled, nor A @= A with one object (C16). *)
From Coq Require Import List Bool Arith.
From Verif Require Import Base.
Import ListNotations.

(** matrices and numbers *)
Record algebra := {
  M : Type; C : Type;
  madd : M -> M -> M; mmul : M -> M -> M; madj : M -> M;
  num : C -> M;                       (* the number times the identity *)
  cneg : C -> C; cinv : C -> C; czero : C -> bool; cmone : C
}.

Section Arith.
Variable G : algebra.

(** an operator: identity of the object, its space, its matrix, is_hermitian *)
Record oper := mkOper { o_id : nat; o_space : nat; o_mat : M G; o_herm : bool }.

(** operands.  [Spec k o]: a special Hamiltonian of class [k] (Ising, BoseHubbard);
    [Sqr o]: the lazy Squared(o), a result only *)
Inductive obj :=
| Loc (o : oper) | Spec (k : nat) (o : oper) | Pauli (o : oper) | Num (c : C G)
| Sqr (o : oper).

(** what a special method returns *)
Inductive meth := Val (v : obj) | NotImpl | Raise (e : exn).

(** identity of the new objects that operations create *)
Variable fresh : nat.
Definition new_loc (sp : nat) (m : M G) : obj := Loc (mkOper fresh sp m false).

(** to_local_operator (_hamiltonian.py 214-228, 547-566), C21 and C22 *)
Definition to_local (o : oper) : oper := mkOper fresh (o_space o) (o_mat o) (o_herm o).

Definition same_type (a b : obj) : bool :=
  match a, b with
  | Loc _, Loc _ | Pauli _, Pauli _ | Num _, Num _ | Sqr _, Sqr _ => true
  | Spec k _, Spec l _ => Nat.eqb k l
  | _, _ => false
  end.

(** ** LocalOperator *)
(** __iadd__ (lines 328-358) on a copy (lines 320-323): other spaces and other classes are
    not implemented *)
Definition loc_add (o : oper) (b : obj) : meth :=
  match b with
  | Loc p => if Nat.eqb (o_space o) (o_space p)
             then Val (new_loc (o_space o) (madd G (o_mat o) (o_mat p))) else NotImpl
  | Num c => Val (new_loc (o_space o) (madd G (o_mat o) (num G c)))
  | _ => NotImpl
  end.
(** lines 325-326 *)
Definition loc_radd := loc_add.
(** __mul__ (lines 374-393): with an operator it is the in-place @ on a copy, which is
    implemented for LocalOperators only (lines 416-425) and does not look at the spaces *)
Definition loc_mul (o : oper) (b : obj) : meth :=
  match b with
  | Loc p => Val (new_loc (o_space o) (mmul G (o_mat o) (o_mat p)))
  | Num c => Val (new_loc (o_space o) (mmul G (o_mat o) (num G c)))
  | _ => NotImpl
  end.
(** lines 474-475 *)
Definition loc_rmul := loc_mul.
(** __neg__ (lines 371-372): -1 * self *)
Definition loc_neg (o : oper) : oper :=
  mkOper fresh (o_space o) (mmul G (o_mat o) (num G (cmone G))) false.
(** unary minus (defined by LocalOperator and numbers only) *)
Definition neg (b : obj) : res obj :=
  match b with
  | Loc p => Ok (Loc (loc_neg p))
  | Num c => Ok (Num (cneg G c))
  | _ => Err TypeError
  end.
(** __matmul__ (_abstract_operator.py 313-323): Squared for the same hermitian object;
    otherwise _op__matmul__ (_local_operator.py 427-435) *)
Definition loc_matmul (o : oper) (b : obj) : meth :=
  match b with
  | Loc p => if Nat.eqb (o_id o) (o_id p) && o_herm o then Val (Sqr o)
             else Val (new_loc (o_space o) (mmul G (o_mat o) (o_mat p)))
  | _ => NotImpl
  end.

(** ** Special Hamiltonians (_hamiltonian.py 40-102).  Sums of two of one class are C58:
    [same_class] is what they give. *)
Variable same_class : bool -> nat -> oper -> oper -> meth.
Definition spec_add (k : nat) (o : oper) (b : obj) : meth :=
  match b with
  | Spec l p => if Nat.eqb k l then same_class true k o p else loc_add (to_local o) b
  | _ => loc_add (to_local o) b
  end.
Definition spec_radd (k : nat) (o : oper) (b : obj) : meth :=
  match b with
  | Spec l p => if Nat.eqb k l then same_class true k o p else loc_radd (to_local o) b
  | _ => loc_radd (to_local o) b
  end.
Definition spec_mul (k : nat) (o : oper) (b : obj) : meth := loc_mul (to_local o) b.
Definition spec_rmul (k : nat) (o : oper) (b : obj) : meth := loc_rmul (to_local o) b.
Definition spec_matmul (k : nat) (o : oper) (b : obj) : meth :=
  match b with
  | Spec l p =>
      if Nat.eqb (o_id o) (o_id p) && o_herm o then Val (Sqr o) else loc_matmul (to_local o) b
  | Num _ => NotImpl
  | _ => loc_matmul (to_local o) b
  end.
(** _op__rmatmul__ (lines 95-99): the operator itself on the left *)
Definition spec_rmatmul (k : nat) (o : oper) (b : obj) : meth :=
  match b with
  | Num _ => NotImpl
  | _ => loc_matmul (to_local o) b
  end.

(** ** Python: the method of the left operand, and the reflected one of the right operand if
    that is not implemented and the types differ *)
Definition protocol (a b : obj) (left : meth) (right : meth) : res obj :=
  match left with
  | Val v => Ok v
  | Raise e => Err e
  | NotImpl =>
      if same_type a b then Err TypeError
      else match right with Val v => Ok v | Raise e => Err e | NotImpl => Err TypeError end
  end.

Definition plus (a b : obj) : res obj :=
  protocol a b
    (match a with Loc o => loc_add o b | Spec k o => spec_add k o b | _ => NotImpl end)
    (match b with Loc p => loc_radd p a | Spec l p => spec_radd l p a | _ => NotImpl end).

Definition as_meth (r : res obj) : meth := match r with Ok v => Val v | Err e => Raise e end.

(** __sub__ (lines 362-363): self + (-other); an error in the minus is not caught.
    __rsub__ (lines 365-366): other + (-self) *)
Definition loc_sub (o : oper) (b : obj) : meth :=
  match neg b with Ok b' => as_meth (plus (Loc o) b') | Err e => Raise e end.
Definition loc_rsub (o : oper) (b : obj) : meth := as_meth (plus b (Loc (loc_neg o))).
Definition spec_sub (k : nat) (o : oper) (b : obj) : meth :=
  match b with
  | Spec l p => if Nat.eqb k l then same_class false k o p else loc_sub (to_local o) b
  | _ => loc_sub (to_local o) b
  end.
Definition spec_rsub (k : nat) (o : oper) (b : obj) : meth := loc_rsub (to_local o) b.

Definition minus (a b : obj) : res obj :=
  protocol a b
    (match a with Loc o => loc_sub o b | Spec k o => spec_sub k o b | _ => NotImpl end)
    (match b with Loc p => loc_rsub p a | Spec l p => spec_rsub l p a | _ => NotImpl end).

Definition times (a b : obj) : res obj :=
  protocol a b
    (match a with Loc o => loc_mul o b | Spec k o => spec_mul k o b | _ => NotImpl end)
    (match b with Loc p => loc_rmul p a | Spec l p => spec_rmul l p a | _ => NotImpl end).

(** PauliStrings inherits __matmul__ and __rmatmul__ with nothing behind them
    (_abstract_operator.py 313-345) but Squared *)
Definition pauli_matmul (o : oper) (b : obj) : meth :=
  match b with
  | Pauli p => if Nat.eqb (o_id o) (o_id p) && o_herm o then Val (Sqr o) else NotImpl
  | _ => NotImpl
  end.
Definition matmul (a b : obj) : res obj :=
  protocol a b
    (match a with
     | Loc o => loc_matmul o b | Spec k o => spec_matmul k o b | Pauli o => pauli_matmul o b
     | _ => NotImpl end)
    (match b with Spec l p => spec_rmatmul l p a | _ => NotImpl end).

(** / (lines 465-472) *)
Definition divide (a b : obj) : res obj :=
  match a with
  | Loc o => match b with
             | Num c => if czero G c then Err ValueError else times a (Num (cinv G c))
             | _ => Err TypeError
             end
  | _ => Err TypeError
  end.

(** ** In place: +=, -=, *=, @=; if not implemented, the plain form.
    __iadd__ 328-360, __isub__ 368-369, __imul__ 395-414, __imatmul__ 416-425 *)
Definition in_place (m : meth) (plain : res obj) : res obj :=
  match m with Val v => Ok v | Raise e => Err e | NotImpl => plain end.
Definition iplus (a b : obj) : res obj :=
  in_place (match a with
            | Loc o => loc_add o b
            | Spec k o => match b with
                          | Spec l p => if Nat.eqb k l then same_class true k o p else NotImpl
                          | _ => NotImpl end
            | _ => NotImpl end) (plus a b).
Definition iminus (a b : obj) : res obj :=
  in_place (match a with
            | Loc o => match neg b with Ok b' => loc_add o b' | Err e => Raise e end
            | Spec k o => match b with
                          | Spec l p => if Nat.eqb k l then same_class false k o p else NotImpl
                          | _ => NotImpl end
            | _ => NotImpl end) (minus a b).
Definition itimes (a b : obj) : res obj :=
  in_place (match a with Loc o => loc_mul o b | _ => NotImpl end) (times a b).
Definition imatmul (a b : obj) : res obj :=
  in_place (match a with
            | Loc o => match b with
                       | Loc p => Val (new_loc (o_space o) (mmul G (o_mat o) (o_mat p)))
                       | _ => NotImpl end
            | _ => NotImpl end) (matmul a b).
End Arith.

Arguments mkOper {G}.
Arguments o_id {G}.
Arguments o_space {G}.
Arguments o_mat {G}.
Arguments o_herm {G}.
Arguments Loc {G}.
Arguments Spec {G}.
Arguments Pauli {G}.
Arguments Num {G}.
Arguments Sqr {G}.
Arguments Val {G}.
Arguments NotImpl {G}.
Arguments Raise {G}.
