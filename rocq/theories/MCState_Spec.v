(** * Vocabulary: samples of the current state *)
From Coq Require Import List ZArith Bool.
From Verif Require Import Base MCState_Model.
Import ListNotations.
Open Scope Z_scope.

Section Spec.
  Context {Par MSt RS Smp : Type}.
  Variable o_sample : sampler -> MSt * Par -> RS -> Z -> Smp * RS.

  (** [x] was drawn by the sampler [sm] with the variables [v]. *)
  Definition drawn_with (sm : sampler) (v : MSt * Par) (x : Smp) : Prop :=
    exists rs len, x = fst (o_sample sm v rs len).
  Definition drawn_with_length (sm : sampler) (v : MSt * Par) (len : Z) (x : Smp) : Prop :=
    exists rs, x = fst (o_sample sm v rs len).

  (** Drawn with chains of length [len] after resetting the sampler and letting every
      chain run for [d] samples that are thrown away. *)
  Definition drawn_after (o_reset : sampler -> MSt * Par -> RS -> RS) (sm : sampler) (v : MSt * Par) (rs : RS)
      (d len : Z) (x : Smp) : Prop :=
    let start := o_reset sm v rs in
    x = fst (o_sample sm v (if 0 <? d then snd (o_sample sm v start d) else start) len).

  (** Operations that ask for another number of samples than the one set. *)
  Definition plain (op : mc_op Par MSt RS) : bool :=
    match op with
    | OSample (Some _) _ _ | OSample _ (Some _) _ => false
    | OSampler _ => false
    | _ => true
    end.
End Spec.

(** The variables after a history: what was assigned last. *)
Fixpoint current {Par MSt RS} (ops : list (mc_op Par MSt RS)) (v : MSt * Par) : MSt * Par :=
  match ops with
  | [] => v
  | OPar p :: ops => current ops (fst v, p)
  | OMst m :: ops => current ops (m, snd v)
  | OVars w :: ops => current ops w
  | _ :: ops => current ops v
  end.

