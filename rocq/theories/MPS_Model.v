(** * Periodic matrix product states (netket/models/mps.py)

    Tensors over an arbitrary commutative ring, local states as integers (the half
    integer case is a rescaling).  The result is the argument of the final logarithm.
    The check of the graph (lines 86-92) only warns and is not modelled. *)
From Coq Require Import List Arith ZArith Bool Lia.
From Verif Require Import Base Rings.
Import ListNotations.
Open Scope nat_scope.

(** 75-85: np.roll(local_states, -1)[0:-1] - local_states[0:-1] *)
Fixpoint spacings (l : list Z) : list Z :=
  match l with
  | a :: ((b :: _) as l') => (b - a)%Z :: spacings l'
  | _ => []
  end.
Definition zmaxl (a : Z) (l : list Z) := fold_left Z.max l a.
Definition zminl (a : Z) (l : list Z) := fold_left Z.min l a.
(** np.max of an empty array raises ValueError. *)
Definition spacing (local_states : list Z) : res Z :=
  match spacings local_states with
  | [] => Err ValueError
  | a :: l => if Z.eqb (zmaxl a l) (zminl a l) then Ok a else Err AssertionError
  end.
Definition bias_of (local_states : list Z) : Z := zminl (hd 0%Z local_states) (tl local_states).

(** 94-113: period of the unit cell.  [L % 0] raises ZeroDivisionError. *)
Definition period (L : nat) (symperiod : option Z) : res nat :=
  match symperiod with
  | None => if L =? 0 then Err ZeroDivisionError else Ok L
  | Some p => if Z.eqb p 0 then Err ZeroDivisionError
              else if andb (Z.eqb (Z.of_nat L mod p) 0) (0 <? p)%Z then Ok (Z.to_nat p) else Err AssertionError
  end.

(** 148-154: index of a local state; float division truncated by astype(int), then jax
    indexing (negative indices wrap, out-of-range ones are clamped). *)
Definition index_of (bias sp : Z) (phys_dim : nat) (x : Z) : nat :=
  let i := Z.quot (x - bias) sp in
  let i := if (i <? 0)%Z then (i + Z.of_nat phys_dim)%Z else i in
  Z.to_nat (Z.max 0 (Z.min i (Z.of_nat phys_dim - 1))).

Section MPS.
  Variable C : cring.
  Infix "+" := (radd C).
  Infix "*" := (rmul C).
  Notation matrix := (list (list (T C))).
  Definition mget (M : matrix) (i j : nat) : T C := nth j (nth i M []) (r0 C).
  Definition mtab (b : nat) (f : nat -> nat -> T C) : matrix :=
    map (fun i => map (f i) (seq 0 b)) (seq 0 b).
  Definition eye (b : nat) : matrix := mtab b (fun i j => if i =? j then r1 C else r0 C).
  (** jnp.einsum("ij,jk->ik", l, r) *)
  Definition matmul (b : nat) (A B : matrix) : matrix :=
    mtab b (fun i k => fsum C b (fun j => mget A i j * mget B j k)).
  Definition trace (b : nat) (M : matrix) : T C := fsum C b (fun i => mget M i i).

  (** The parameter: one row per site of the unit cell and per local state; full tensors
      or diagonals. *)
  Inductive kernel := KFull (k : list (list matrix)) | KDiag (k : list (list (list (T C)))).

  (** 115-143: add identity tensors, expand diagonals. *)
  Definition params (b : nat) (k : kernel) : list (list matrix) :=
    match k with
    | KFull k => map (map (fun M => mtab b (fun i j => mget M i j + mget (eye b) i j))) k
    | KDiag k => map (map (fun d => mtab b (fun i j => (nth i d (r0 C) + r1 C) * mget (eye b) i j))) k
    end.

  (** 151: jnp.tile(params, (L // symperiod, 1, 1, 1)) *)
  Definition tile {A} (m : nat) (cell : list A) : list A := concat (repeat cell m).

  (** 138-178 for one configuration; vmap needs as many entries as tensors. *)
  Definition mps (local_states : list Z) (L : nat) (symperiod : option Z) (b : nat) (k : kernel) (x : list Z)
    : res (T C) :=
    let? sp := spacing local_states in
    let? p := period L symperiod in
    let all_tensors := tile (L / p) (params b k) in
    if negb (length x =? length all_tensors) then Err ValueError else
    let idx := index_of (bias_of local_states) sp (length local_states) in
    let selected := map (fun t => nth (idx (snd t)) (fst t) []) (combine all_tensors x) in
    let edge := fold_left (fun edge t => matmul b edge t) selected (eye b) in
    Ok (trace b edge).
End MPS.
Arguments KFull {C}.
Arguments KDiag {C}.
