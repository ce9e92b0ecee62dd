(** * What C116 says, without the model's functions *)
From Coq Require Import ZArith List Bool Lia.
From Verif Require Import Base Scalar LocalOp_Spec LocalOp_Model LocCtor_Model.
Import ListNotations.

(** complex numbers need a complex type; 64-bit numbers need a type of that precision *)
Definition complex_type (d : dtype) : Prop := d = C64 \/ d = C128.
Definition double_type (d : dtype) : Prop := d = I64 \/ d = F64 \/ d = C128.
Definition floating_type (d : dtype) : Prop := d = F32 \/ d = F64 \/ d = C64 \/ d = C128.
Definition keeps_values (d a : dtype) : Prop :=
  (complex_type a -> complex_type d) /\ (double_type a -> double_type d).

(** a matrix with its numerical type and its sites *)
Definition typed_term (S : scalars) : Type := (dtype * (mat S * list nat))%type.

(** the lists a user writes: LocalOperator(hi, [M1, M2, ...], [[sites], [sites], ...]) *)
Definition matrices {S} (ts : list (typed_term S)) : oparg S :=
  OList (map (fun t => mkArr (fst t) 2 (fst (snd t)) (length (fst (snd t)))) ts).
Definition sites {S} (ts : list (typed_term S)) : actarg :=
  ASeq (map (fun t => SList (map Z.of_nat (snd (snd t)))) ts).

(** a matrix with an entry above the cut-off *)
Definition not_negligible {S} (m : mat S) : Prop :=
  exists r k, In r m /\ In k r /\ kbige S k = true.

Definition in_range (hs : list (list Z)) (l : list Z) : Prop :=
  NoDup l /\ forall s, In s l -> (0 <= s < Z.of_nat (length hs))%Z.

Definition raises {A} (r : res A) : Prop := exists e, r = Err e.
