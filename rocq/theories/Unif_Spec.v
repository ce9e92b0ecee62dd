(** * Distribution of the outcome of a program which draws integers *)
From Coq Require Import ZArith QArith List Bool Reals Factorial.
From Verif Require Import Base Hilbert_Model Hilbert_Spec Balance_Spec Rules_Spec Unif_Model.
Import ListNotations.
Open Scope R_scope.

(** Expectation: every draw below [n] takes each value with probability 1/n; an exception
    contributes nothing. *)
Fixpoint expect {A} (p : prog A) (f : A -> R) : R :=
  match p with
  | Ret a => f a
  | Fail _ => 0
  | Draw n k => / INR n * rsum (fun i => expect (k i) f) (seq 0 n)
  end.

(** Probability of the configuration [x]. *)
Definition prob (p : prog (list Z)) (x : list Z) : R := expect p (fun y => if cfg_eqd y x then 1 else 0).

(** No outcome is an exception. *)
Fixpoint never_fails {A} (p : prog A) : Prop :=
  match p with
  | Ret _ => True
  | Fail _ => False
  | Draw n k => (0 < n)%nat /\ forall i, (i < n)%nat -> never_fails (k i)
  end.

(** [p] is uniformly distributed on the configurations satisfying [P]: none else occurs, and
    if these are listed by [l] each has probability 1 / length l. *)
Definition uniform_on (p : prog (list Z)) (P : list Z -> Prop) : Prop :=
  never_fails p /\
  (forall x, ~ P x -> prob p x = 0) /\
  forall l, NoDup l -> (forall x, In x l <-> P x) -> forall x, In x l -> prob p x = / INR (length l).

(** Exactly the configurations satisfying [P] have positive probability. *)
Definition supported_on (p : prog (list Z)) (P : list Z -> Prop) : Prop :=
  never_fails p /\ forall x, prob p x > 0 <-> P x.

(** Spaces made by the constructors: finite, non-empty lists of distinct values, a
    magnetisation which is a multiple of 1/2. *)
Inductive drawable : hilbert -> Prop :=
| draw_Fock m N : (0 <= m)%Z -> drawable (Fock m true N None)
| draw_Fock_constrained n_max N p id h : mk_Fock n_max N (Some p) id = Ok h -> (0 < N)%nat -> drawable h
| draw_Spin s2 N : drawable (Spin s2 N None)
| draw_Spin_constrained s2 N sz id h m : mk_Spin s2 N (Some sz) id = Ok h -> (2 * sz == inject_Z m)%Q -> drawable h
| draw_Qubit N : drawable (Qubit N)
| draw_Custom ls N : NoDup ls -> ls <> [] -> drawable (Custom (Some ls) N None)
| draw_Tensor l : Forall drawable l -> drawable (Tensor l)
| draw_Doubled h : drawable h -> drawable (Doubled h).

(** Constrained factors have two local values. *)
Fixpoint two_valued (h : hilbert) : Prop :=
  match h with
  | Fock m _ _ (Some _) => m = 1%Z
  | Spin s2 _ (Some _) => s2 = 1%nat
  | Tensor l => fold_right (fun h P => two_valued h /\ P) True l
  | Doubled h => two_valued h
  | _ => True
  end.

(** What the legacy call supports correctly: no tensor product, no Fock space without a
    particle number. *)
Fixpoint legacy_ok (h : hilbert) : Prop :=
  match h with
  | Fock _ _ _ None => False
  | Tensor _ => False
  | Doubled h => legacy_ok h
  | _ => True
  end.

(** Product of the factorials of the occupation numbers. *)
Fixpoint occ_facts (x : list Z) : R :=
  match x with [] => 1 | a :: x => INR (fact (Z.to_nat a)) * occ_facts x end.
