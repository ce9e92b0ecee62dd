(** * Vocabulary for the legacy samplers of jax machines *)
From Coq Require Import List ZArith Bool Reals Permutation.
From Verif Require Import Base Rules_Model LegSamp_Model LegSamp_Spec Keys_Model Keys_Spec LegJsamp_Model.
Import ListNotations.
Open Scope nat_scope.

Section Chains.
  Context {Par : Type}.
  Variable logv : Par -> cfg -> R.
  Variable unif : key -> nat -> R.
  Variable mv : key -> cfg -> cfg.
  (** One Metropolis step of all chains with |psi|^pow at parameters [p]: chain i proposes with
      the key i of [ks], and its test uses number i of the key [ku]; these keys are unrelated. *)
  Definition moves (p : Par) (pow : R) (xs ys : list cfg) : Prop :=
    exists ku ks, unrelated (ku :: ks) /\ length ks = length xs /\ length ys = length xs /\
      forall i d, i < length xs ->
        let x := nth i xs [] in
        let y := mv (nth i ks d) x in
        (leg_test (logv p) pow (fun _ _ => 0%R) x y (unif ku i) /\ nth i ys [] = y) \/
        (~ leg_test (logv p) pow (fun _ _ => 0%R) x y (unif ku i) /\ nth i ys [] = x).
  (** [m] steps *)
  Inductive linked (p : Par) (pow : R) : nat -> list cfg -> list cfg -> Prop :=
  | linked_0 xs : linked p pow 0 xs xs
  | linked_S m xs ys zs : moves p pow xs ys -> linked p pow m ys zs -> linked p pow (S m) xs zs.
End Chains.
(** Every element of a list is related to the one before it; the first one to [x]. *)
Fixpoint follows {A} (R : A -> A -> Prop) (x : A) (l : list A) : Prop :=
  match l with [] => True | y :: l => R x y /\ follows R y l end.

(** Two sources of random numbers give the same numbers for a key. *)
Definition agree (r1 r2 : rng) (k : key) : Prop :=
  (forall i, r_unif r1 k i = r_unif r2 k i) /\ (forall h i, r_int r1 k h i = r_int r2 k h i).
(** Integers are below their bound. *)
Definition bounded (r : rng) : Prop := forall k h i, 0 < h -> r_int r k h i < h.

(** The samplers of the two kernels *)
Definition local_history {Par} (r : rng) (ls : list Z) (size : nat) (logv : Par -> cfg -> R) :=
  history size logv (r_unif r) (jlocal_move r ls size) (jlocal_random r ls size).
Definition exch_history {Par} (r : rng) (clusters : list (nat * nat)) (traced : cfg) (size : nat) (logv : Par -> cfg -> R) :=
  history size logv (r_unif r) (jexch_move r clusters) (jexch_random traced).

(** The keys random numbers are drawn with in a history *)
Fixpoint history_used {Par} (size : nat) (logv : Par -> cfg -> R) unif mv rd tr ru (s : jsmp Par) (ops : list (jop Par)) : list key :=
  match ops with
  | [] => []
  | o :: ops => snd (op_used tr ru s o) ++ history_used size logv unif mv rd tr ru (fst (apply_op size logv unif mv rd s o)) ops
  end.
Definition local_used {Par} (r : rng) (ls : list Z) (size : nat) (logv : Par -> cfg -> R) :=
  history_used size logv (r_unif r) (jlocal_move r ls size) (jlocal_random r ls size) local_rule local_random_used.
Definition exch_used {Par} (r : rng) (clusters : list (nat * nat)) (traced : cfg) (size : nat) (logv : Par -> cfg -> R) :=
  history_used size logv (r_unif r) (jexch_move r clusters) (jexch_random traced) whole exch_random_used.

(** All configurations returned or kept *)
Definition results (rs : list (res (option (list (list cfg))))) : list cfg :=
  concat (map (fun r => match r with Ok (Some l) => concat l | _ => [] end) rs).
