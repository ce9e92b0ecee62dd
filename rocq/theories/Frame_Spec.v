(** * What C119 says, without the model's functions *)
From Coq Require Import String List Bool Arith ZArith.
From Verif Require Import Base Frame_Model.
Import ListNotations.
Open Scope nat_scope.

(** a network of jax.experimental.stax: init(rng, input_shape), apply(params, inputs) *)
Definition stax (i a : elem) : Prop :=
  e_callable i = true /\ e_callable a = true /\ e_args i = Some 2 /\ e_args a = Some 2.

(** hk.transform: init(rng, ...), apply(params, rng, ...); the number of named arguments is
    known for both and the functions do not look like those of stax *)
Definition transformed (i a : elem) : Prop :=
  (exists n, e_args i = Some n /\ n <> 2) /\ exists k, e_args a = Some k.

(** the result of init: a dictionary with the parameters under "params" *)
Definition variables_of (p : val) : val := VDict [("params"%string, p)].

(** a dictionary of random keys *)
Definition keys_with (k : val) (others : list (string * val)) : val := VDict (("params"%string, k) :: others).

(** a sample *)
Definition shape_tuple (s : list nat) : val := VTuple (map (fun n => VNum (Z.of_nat n)) s).

(** the model is no flax module, no tuple of two, no haiku module *)
Definition other_package (m : pymodule) : Prop :=
  match m with
  | MOther _ => True
  | MTuple l => length l <> 2
  | _ => False
  end.

Definition raises {A} (r : res A) : Prop := exists e, r = Err e.
