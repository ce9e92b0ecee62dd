(** * What StateLog is expected to store (C55) *)
From Coq Require Import List ZArith Bool.
From Verif Require Import StateLog_Model.
Import ListNotations.
Open Scope Z_scope.

(** A checkpoint is any file whose name ends in .mpack, however its number is spelled; the
    number of a name, where there is one. *)
Definition checkpoint (n : fname) : bool :=
  match n with FNum _ | FAlias _ _ | FBad _ => true | FOther _ _ => false end.
Definition number (n : fname) : option Z :=
  match n with FNum z | FAlias z _ | FOther _ (Some z) => Some z | FBad _ | FOther _ None => None end.

Section Spec.
  Context {V : Type}.
  (** The variables to save: of every [se]-th call, and of a call whose step is one less than
      the previous one. *)
  Fixpoint due (se i prev : Z) (calls : list (Z * V)) : list V :=
    match calls with
    | [] => []
    | (step, v) :: r => (if (i mod se =? 0) || (step =? prev - 1) then [v] else []) ++ due se (i + 1) step r
    end.
  Definition to_save (se : Z) (calls : list (Z * V)) : list V := due se 0 0 calls.

  (** The content of the file of a name. *)
  Fixpoint lookup (n : fname) (l : list (fname * option V)) : option (option V) :=
    match l with [] => None | (m, c) :: l => if fname_eqb m n then Some c else lookup n l end.

  (** Checkpoints [b], [b+1], ... hold the variables [vs], completely. *)
  Definition holds (b : Z) (vs : list V) (l : list (fname * option V)) : Prop :=
    forall i v, nth_error vs i = Some v -> lookup (FNum (b + Z.of_nat i)) l = Some (Some v).
  (** Every entry selected by [keep] is as it was. *)
  Definition kept (keep : fname -> Prop) (l0 l : list (fname * option V)) : Prop :=
    forall n, keep n -> lookup n l = lookup n l0.
  (** A state of the folder in which the checkpoints [b], [b+1], ... hold [vs] and the
      entries selected by [K] are as in [l0]. *)
  Definition sofar (b : Z) (vs : list V) (K : fname -> Prop) (l0 : list (fname * option V)) (y : store V) : Prop :=
    exists ly, y = Some ly /\ holds b vs ly /\ kept K l0 ly.

  (** [b] is the first number to use: 0, and in append mode one more than the largest number
      of an earlier checkpoint; the earlier checkpoints all have numbers. [sel] tells which
      entries are looked at. *)
  Definition first_number (md : smode) (sel : fname -> bool) (d : store V) (b : Z) : Prop :=
    match md with
    | MAppend =>
        (forall n c, In (n, c) (entries V d) -> sel n = true -> exists z, number n = Some z) /\
        (exists n c, In (n, c) (entries V d) /\ sel n = true /\ number n = Some (b - 1)) /\
        (forall n c z, In (n, c) (entries V d) -> sel n = true -> number n = Some z -> z <= b - 1)
    | _ => b = 0
    end.

  (** Members [b], [b+1], ... of an archive. *)
  Fixpoint numbered (b : Z) (vs : list V) : list (fname * option V) :=
    match vs with [] => [] | v :: vs => (FNum b, Some v) :: numbered (b + 1) vs end.
End Spec.
