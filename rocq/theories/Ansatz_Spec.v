(** * What the amplitudes are expected to be *)
From Coq Require Import List Arith ZArith Reals Permutation.
From Verif Require Import Base Rings ARNN_Model Estim_Model ToArray_Model Ansatz_Model.
Import ListNotations.
Open Scope R_scope.

(** The amplitude of a logarithm. *)
Definition amplitude (l : logval) : cpx := match l with None => (0, 0) | Some z => cexp z end.
(** (e^z + e^-z) / 2 *)
Definition ccosh (z : cpx) : cpx := rscal (1/2) (radd cC (cexp z) (cexp (ropp cC z))).
Fixpoint cprod (n : nat) (f : nat -> cpx) : cpx :=
  match n with O => (1, 0) | S n => rmul cC (cprod n f) (f n) end.
Fixpoint rprod (n : nat) (f : nat -> R) : R :=
  match n with O => 1 | S n => rprod n f * f n end.
(** Input of hidden unit [j] *)
Definition theta (n : nat) (W : nat -> nat -> cpx) (b : option (nat -> cpx)) (s : nat -> cpx) (j : nat) : cpx :=
  radd cC (fsum cC n (fun i => rmul cC (W i j) (s i))) (match b with None => (0, 0) | Some b => b j end).
Definition visible (n : nat) (a : option (nat -> cpx)) (s : nat -> cpx) : cpx :=
  match a with None => (0, 0) | Some a => fsum cC n (fun i => rmul cC (a i) (s i)) end.

Definition isreal (z : cpx) : Prop := snd z = 0.
Definition real_vec (x : nat -> cpx) : Prop := forall i, isreal (x i).
Definition real_opt (x : option (nat -> cpx)) : Prop := forall b, x = Some b -> real_vec b.
Definition real_kernel (k : nat -> nat -> cpx) : Prop := forall i j, isreal (k i j).
Definition real_params (p : ndm_params) : Prop :=
  real_kernel (s_kernel p) /\ real_opt (s_hidden p) /\ real_opt (s_visible p) /\
  real_kernel (a_kernel p) /\ real_opt (a_hidden p) /\ real_opt (a_visible p) /\
  real_kernel (m_symm p) /\ real_kernel (m_asymm p) /\ real_opt (m_bias p).

(** sum_ij conj(c_i) rho(x_i, x_j) c_j over a list of basis states with coefficients *)
Definition quadratic {X} (rho : X -> X -> cpx) (v : list (cpx * X)) : cpx :=
  lsum cC (map (fun a => lsum cC (map (fun b =>
    rmul cC (rmul cC (rconj cC (fst a)) (rho (snd a) (snd b))) (fst b)) v)) v).
Definition positive_semidefinite {X} (ok : X -> Prop) (rho : X -> X -> cpx) : Prop :=
  forall v, Forall (fun a => ok (snd a)) v -> 0 <= fst (quadratic rho v) /\ snd (quadratic rho v) = 0.
Definition hermitian {X} (ok : X -> Prop) (rho : X -> X -> cpx) : Prop :=
  forall x y, ok x -> ok y -> rho x y = rconj cC (rho y x).
