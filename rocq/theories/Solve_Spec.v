(** * What it means to solve the system *)
From Coq Require Import List Arith Bool Reals.
From Verif Require Import Base Rings ARNN_Model Estim_Model QGT_Model QGT_Spec.
Import ListNotations.
Open Scope R_scope.

(** [A x = y] on the given indices. *)
Definition solves {I T} (idx : I -> Prop) (A : (I -> T) -> I -> T) (x y : I -> T) : Prop :=
  forall i, idx i -> A x i = y i.
(** The solver finds a solution for every right-hand side of the given form and every
    guess. *)
Definition exact_on {I T} (rhs : (I -> T) -> Prop) (idx : I -> Prop) (A : (I -> T) -> I -> T)
    (sol : ((I -> T) -> I -> T) -> (I -> T) -> option (I -> T) -> I -> T) : Prop :=
  forall y x0, rhs y -> solves idx A (sol A y x0) y.
Definition exact {I T} (idx : I -> Prop) (A : (I -> T) -> I -> T)
    (sol : ((I -> T) -> I -> T) -> (I -> T) -> option (I -> T) -> I -> T) : Prop :=
  forall y x0, solves idx A (sol A y x0) y.
(** Entries of real parameters are real. *)
Definition typed (ls : leaves) (y : nat -> cpx) : Prop := forall k, flag ls k = false -> snd (y k) = 0.
(** The routine finds a solution of dense systems with this matrix. *)
Definition exact_dense {I} (C : cring) (cols : list I) (M : I -> I -> T C)
    (routine : (I -> I -> T C) -> (I -> T C) -> I -> T C) : Prop :=
  forall y i, In i cols -> lsum C (map (fun j => rmul C (M i j) (routine M y j)) cols) = y i.

(** Real coordinates of the parameters. *)
Definition is_coord (ls : leaves) (c : coord) : Prop :=
  (fst c < n_pars ls)%nat /\ (snd c = true -> flag ls (fst c) = true).

(** (S + shift) x = y, the imaginary parts counting for complex parameters only. *)
Definition natural_gradient (ls : leaves) (ss : list sample) (shift : R) (x y : nat -> cpx) : Prop :=
  forall k, (k < n_pars ls)%nat -> geometric ls ss shift x k = (fst (y k), if flag ls k then snd (y k) else 0).
Definition natural_gradient_holo (P : nat) (ss : list sample) (shift : R) (x y : nat -> cpx) : Prop :=
  forall k, (k < P)%nat -> geometric_holo P ss shift x k = y k.

(** Diagonal of S in real coordinates. *)
Definition diagonal (ss : list sample) (c : coord) : R :=
  ravg ss (fun s => fst (delta ss c s) * fst (delta ss c s) + snd (delta ss c s) * snd (delta ss c s)).
(** (S + shift diag(S)) x = y *)
Definition natural_gradient_rescaled (ls : leaves) (ss : list sample) (shift : R) (x y : nat -> cpx) : Prop :=
  forall k, (k < n_pars ls)%nat ->
    fst (geometric ls ss 0 x k) + shift * diagonal ss (k, false) * fst (x k) = fst (y k) /\
    (flag ls k = true -> snd (geometric ls ss 0 x k) + shift * diagonal ss (k, true) * snd (x k) = snd (y k)).

(** Two parameter vectors are equal: entries of real parameters have real values. *)
Definition same_vector (ls : leaves) (u v : nat -> cpx) : Prop :=
  forall k, (k < n_pars ls)%nat -> fst (u k) = fst (v k) /\ (flag ls k = true -> snd (u k) = snd (v k)).

(** What preconditioner.py 48-50 documents about the guess: "If False uses the last
    solution of the linear system as a starting point". *)
Definition documented_guess {V} (solver_restart : bool) (last : option V) : option V :=
  if solver_restart then None else last.
(** Successive solves, each with the guess given by a rule from the last solution. *)
Fixpoint successive {VS V} (rule : option V -> option V) (solve : VS -> V -> option V -> res V)
    (last : option V) (calls : list (VS * V)) : list (res V) :=
  match calls with
  | [] => []
  | (s, f) :: calls =>
      let r := solve s f (rule last) in
      r :: successive rule solve (match r with Ok x => Some x | Err _ => last end) calls
  end.
