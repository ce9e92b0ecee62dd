(** * Random states of Hilbert spaces: the draws

    [random_state] of netket/hilbert/random and [_random_state_legacy] of the Hilbert
    classes, as programs which draw integers.  A draw below [n] stands for one number of
    [rgen.integers(0, n)], [jax.random.randint(key, minval=0, maxval=n)] or the index
    chosen by [choice]; that all values are equally likely and draws are independent is
    the assumption under which distributions are computed (Unif_Spec.v).  One row of the
    batch; dtypes and the [out] argument are left out. *)
From Coq Require Import ZArith QArith List Bool.
From Verif Require Import Base Hilbert_Model HilbertOps_Model.
Import ListNotations.
Open Scope Z_scope.

(** A computation which draws integers and may raise. *)
Inductive prog (A : Type) :=
| Ret (a : A)
| Fail (e : exn)
| Draw (n : nat) (k : nat -> prog A).
Arguments Ret {A} a. Arguments Fail {A} e. Arguments Draw {A} n k.

(** Sequencing; an exception ends the program. *)
Fixpoint pbind {A B} (p : prog A) (f : A -> prog B) : prog B :=
  match p with
  | Ret a => f a
  | Fail e => Fail e
  | Draw n k => Draw n (fun i => pbind (k i) f)
  end.

(** Drawing below 0 raises ValueError. *)
Definition below (n : nat) : prog nat :=
  if (n =? 0)%nat then Fail ValueError else Draw n (fun i => Ret i).

(** [N] independent draws below [n], mapped by [g]: random/fock.py 28-30, random/spin.py
    29-34, random/qubit.py 22-25, random/custom.py 22-36. *)
Fixpoint iid (n : nat) (g : nat -> Z) (N : nat) : prog (list Z) :=
  match N with
  | O => Ret []
  | S N => pbind (below n) (fun i => pbind (iid n g N) (fun l => Ret (g i :: l)))
  end.

(** [sites.pop(s)] (random/fock.py 58-61, random/spin.py 92-95). *)
Definition del {A} (s : nat) (l : list A) : list A := firstn s l ++ skipn (S s) l.

(** random/fock.py 44-61 and random/spin.py 78-95; also fock.py 163-176 and spin.py
    186-200 (legacy): the loop over particles, [sites] being the sites which are not
    full. *)
Fixpoint fill_prog (step : Z) (full : Z -> bool) (n : nat) (sites : list nat) (out : list Z)
  : prog (list Z) :=
  match n with
  | O => Ret out
  | S n =>
      pbind (below (length sites)) (fun s =>
        let j := nth s sites O in
        let out' := upd out j (nth j out 0 + step) in
        fill_prog step full n (if full (nth j out' 0) then del s sites else sites) out')
  end.

(** jax.random.permutation (random/spin.py 63-65): every ordering equally likely, drawn
    element by element. *)
Fixpoint shuffle (n : nat) (l : list Z) : prog (list Z) :=
  match n with
  | O => Ret []
  | S n => pbind (below (length l)) (fun s =>
             pbind (shuffle n (del s l)) (fun r => Ret (nth s l 0 :: r)))
  end.

(** random/fock.py 32-61 and fock.py 163-176: all particles, starting from no particle. *)
Definition fock_fill (n_max : Z) (N : nat) (p : Z) : prog (list Z) :=
  fill_prog 1 (fun x => x =? n_max) (Z.to_nat p) (seq 0 N) (repeat 0 N).
(** random/spin.py 78-95 and spin.py 183-200: spins raised by 2, starting from all down. *)
Definition spin_fill (s2 N : nat) (sz : Q) : prog (list Z) :=
  fill_prog 2 (fun x => Z.of_nat s2 - 1 <? x)
    (Z.to_nat (py_round (inject_Z (Z.of_nat s2 * Z.of_nat N) / 2 + sz)))
    (seq 0 N) (repeat (- Z.of_nat s2) N).

(** hilbert/random: random_state(hilb, key).  Tensor products concatenate
    (random/tensor_hilbert.py 23-32), doubled spaces draw twice (random/doubled.py 26-33). *)
Fixpoint random_state (h : hilbert) : prog (list Z) :=
  match h with
  | Fock m _ N None => iid (Z.to_nat (m + 1)) Z.of_nat N
  | Fock m _ N (Some (p, _)) => fock_fill m N p
  | Spin s2 N None => iid (s2 + 1) (fun k => Z.of_nat k * 2 - Z.of_nat s2) N
  | Spin s2 N (Some (sz, _)) =>
      if (s2 =? 1)%nat then let x := spin_half_unshuffled N sz in shuffle (length x) x
      else spin_fill s2 N sz
  | Qubit N => iid 2 Z.of_nat N
  | Custom (Some ls) N None => iid (length ls) (fun k => nth k ls 0) N
  | Custom _ _ _ => Fail NotImplementedError
  | Tensor l =>
      fold_right (fun p q => pbind p (fun a => pbind q (fun b => Ret (a ++ b)))) (Ret []) (map random_state l)
  | Doubled h => pbind (random_state h) (fun a => pbind (random_state h) (fun b => Ret (a ++ b)))
  end.

(** [random_state()] without a key: homogeneous.py 197-214, spin.py 159-184, fock.py
    178-201, doubled_hilbert.py 139-152; TensorHilbert has no such method. *)
Fixpoint random_state_legacy (h : hilbert) : prog (list Z) :=
  match h with
  | Fock m _ N None => iid (Z.to_nat m) Z.of_nat N
  | Fock m _ N (Some (p, _)) => fock_fill m N p
  | Spin s2 N None => iid (s2 + 1) (fun k => - Z.of_nat s2 + 2 * Z.of_nat k) N
  | Spin s2 N (Some (sz, _)) => spin_fill s2 N sz
  | Qubit N => iid 2 (fun k => nth k [0; 1] 0) N
  | Custom (Some ls) N None => iid (length ls) (fun k => nth k ls 0) N
  | Custom _ _ _ => Fail NotImplementedError
  | Tensor _ => Fail AttributeError
  | Doubled h => pbind (random_state_legacy h) (fun a => pbind (random_state_legacy h) (fun b => Ret (a ++ b)))
  end.

(** The call [hilbert.random_state(key, size)] (abstract_hilbert.py 107-125): which of the
    two is used, and for how many states. *)
Inductive arg := NotGiven | AnInt (n : Z) | ATuple (l : list Z) | AKey | ANone.
Inductive call := Legacy (size : arg) | WithKey (key size : arg).
Definition dispatch_random (key size : arg) : call :=
  match key, size with
  | NotGiven, NotGiven => Legacy ANone
  | NotGiven, s => Legacy s
  | ATuple l, _ => Legacy (ATuple l)
  | AnInt n, NotGiven => Legacy (AnInt n)
  | k, NotGiven => WithKey k ANone
  | k, s => WithKey k s
  end.
