(** * Model of netket/legacy/random.py

    The generator of numpy is an argument: its states, what np.random.seed makes of a seed,
    and one draw of np.random.randint(0, 1 << 32).  That numba may keep another generator
    than numpy's own is not modelled. *)
From Coq Require Import List Bool Arith ZArith Reals.
From Verif Require Import Base.
Import ListNotations.
Open Scope nat_scope.

Section Gen.
Variable state : Type.
Variable start : Z -> state.
Variable draw : state -> Z * state.

(** np.random.randint(0, 1 << 32, size=n) (line 23): n draws one after the other *)
Fixpoint draws (n : nat) (s : state) : list Z :=
  match n with
  | 0 => []
  | S n' => fst (draw s) :: draws n' (snd (draw s))
  end.

(** seed (lines 9-25; also run on import, line 87) in the process [rank] of [n_nodes], whose generator is in state [s]
    before; no value is exchanged between the processes; the state after is returned *)
Definition seed_of (rank n_nodes : nat) (sd : option Z) (s : state) : state :=
  let sd' := match sd with None => fst (draw s) | Some z => z end in
  let derived := draws n_nodes (start sd') in
  start (nth rank derived 0%Z).
End Gen.

(** randint (lines 48-65) for one draw [x] of np.random.rand, in exact real arithmetic;
    Int_part is the floor *)
Definition randint (low high : Z) (x : R) : Z :=
  (Int_part (x * IZR (high - low)) + low)%Z.
