(** * What the spin and boson operators are, independently of the code

    Matrices are given by their entries; sizes are explicit. *)
From Coq Require Import List ZArith Reals.
From Verif Require Import LocalOp_Spec.
Import ListNotations.
Open Scope R_scope.

Notation cpx := (R * R)%type.
Definition cadd (a b : cpx) : cpx := (fst a + fst b, snd a + snd b).
Definition csub (a b : cpx) : cpx := (fst a - fst b, snd a - snd b).
Definition cmul (a b : cpx) : cpx :=
  (fst a * fst b - snd a * snd b, fst a * snd b + snd a * fst b).
Definition cconj (a : cpx) : cpx := (fst a, - snd a).
Definition ci : cpx := (0, 1).

Definition op := nat -> nat -> cpx.
(** entries of a list of rows *)
Definition of_rows (m : list (list cpx)) : op := fun i j => nth j (nth i m []) (0, 0).
(** [m] is the [N] x [N] matrix [A] *)
Definition is_matrix (N : nat) (m : list (list cpx)) (A : op) : Prop :=
  length m = N /\ Forall (fun r => length r = N) m /\
  forall i j, (i < N)%nat -> (j < N)%nat -> of_rows m i j = A i j.

Fixpoint csum (n : nat) (f : nat -> cpx) : cpx :=
  match n with O => (0, 0) | S n => cadd (csum n f) (f n) end.
Definition oadd (A B : op) : op := fun i j => cadd (A i j) (B i j).
Definition osub (A B : op) : op := fun i j => csub (A i j) (B i j).
Definition oscale (c : cpx) (A : op) : op := fun i j => cmul c (A i j).
Definition omul (N : nat) (A B : op) : op :=
  fun i j => csum N (fun k => cmul (A i k) (B k j)).
Definition ocomm (N : nat) (A B : op) : op := osub (omul N A B) (omul N B A).
Definition oid : op := fun i j => if Nat.eqb i j then (1, 0) else (0, 0).
Definition odagger (A : op) : op := fun i j => cconj (A j i).
(** equality of [N] x [N] matrices *)
Definition same (N : nat) (A B : op) : Prop :=
  forall i j, (i < N)%nat -> (j < N)%nat -> A i j = B i j.

(** local states of a spin (N - 1) / 2: -(N-1), -(N-1)+2, ..., N-1 *)
Definition spin_states (N : nat) : list Z :=
  map (fun i => 2 * Z.of_nat i - (Z.of_nat N - 1))%Z (seq 0 N).
(** local states of a boson mode with at most N - 1 particles *)
Definition fock_states (N : nat) : list Z := map Z.of_nat (seq 0 N).

(** the configuration [x] with site [s] changed to [v] *)
Fixpoint with_site (x : list Z) (s : nat) (v : Z) : list Z :=
  match x, s with
  | [], _ => []
  | _ :: t, O => v :: t
  | a :: t, S s => a :: with_site t s v
  end.

(** *** Elements <x| A |y> of an operator that acts on site [s] only *)
Definition moved (x : list Z) (s : nat) (step : Z) : list Z := with_site x s (nth s x 0%Z + step)%Z.

(** [v] if the configurations are equal *)
Definition when_eq (x y : list Z) (v : cpx) : cpx := if list_eq_dec Z.eq_dec x y then v else (0, 0).
Definition real (r : R) : cpx := (r, 0).

(** j and m of a spin with [N] local states and stored value [v] = 2 m *)
Definition jj (N : nat) : R := (INR N - 1) / 2.
Definition mm (v : Z) : R := IZR v / 2.
(** standard ladder factors sqrt (j(j+1) - m(m+1)) and sqrt (j(j+1) - m(m-1)) *)
Definition ladder_up (N : nat) (v : Z) : R := sqrt (jj N * (jj N + 1) - mm v * (mm v + 1)).
Definition ladder_down (N : nat) (v : Z) : R := sqrt (jj N * (jj N + 1) - mm v * (mm v - 1)).

(** sum of the values of a configuration *)
Definition magnetisation (x : list Z) : Z := fold_right Z.add 0%Z x.

(** the operator [A] on one site, the identity elsewhere *)
Definition site_element (hs : list (list Z)) (site : nat) (A : op) (x y : list Z) : cpx :=
  if same_elsewhere [site] x y
  then A (pos_in (nth site hs []) (nth site x 0%Z)) (pos_in (nth site hs []) (nth site y 0%Z))
  else (0, 0).
