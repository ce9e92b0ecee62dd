(** * What wrappers stand for *)
From Coq Require Import ZArith List Bool.
From Verif Require Import Base Scalar LocalOp_Spec Lazy_Model.
Import ListNotations.

Section Spec.
Variable S : scalars.
Definition matrix := list Z -> list Z -> K S.

Inductive move := MT | MH | MConj.          (* .T, .H, .conj() *)
Definition apply_move (m : move) (f : matrix) : matrix :=
  match m with
  | MT => fun x y => f y x
  | MH => fun x y => kconj S (f y x)
  | MConj => fun x y => kconj S (f x y)
  end.

Definition product (hs : list (list Z)) (f g : matrix) : matrix :=
  fun x y => sum S (map (fun z => kmul S (f x z) (g z y)) (all_configs hs)).

(** the matrix an operator object stands for *)
Fixpoint matrix_of (hs : list (list Z)) (o : op S) : matrix :=
  match o with
  | Conc _ e => denote S hs e
  | Tr _ p => apply_move MT (matrix_of hs p)
  | Ad _ p => apply_move MH (matrix_of hs p)
  | Sq _ p => product hs (apply_move MH (matrix_of hs p)) (matrix_of hs p)
  end.

Definition agree (hs : list (list Z)) (f g : matrix) : Prop :=
  forall x y, configuration hs x -> configuration hs y -> f x y = g x y.

(** running user operations on an object *)
Variable herm : expr S -> bool.
Definition run_move (m : move) (o : op S) : res (op S) :=
  match m with MT => dotT S herm o | MH => dotH S herm o | MConj => conj_ S herm o end.
Fixpoint run (ms : list move) (o : op S) : res (op S) :=
  match ms with [] => Ok o | m :: ms => let? o := run_move m o in run ms o end.
Fixpoint moved (ms : list move) (f : matrix) : matrix :=
  match ms with [] => f | m :: ms => moved ms (apply_move m f) end.
End Spec.
