(** * Helpers for concrete examples: existence of a computed result *)
From Verif Require Import Base.

Lemma ok_ex {A} (a : res A) (P : A -> Prop) :
  match a with Ok x => P x | Err _ => False end -> exists x, a = Ok x /\ P x.
Proof. destruct a; [eauto|tauto]. Qed.

Lemma ok_ex2 {A B} (a : res A) (b : A -> res B) (P : A -> B -> Prop) :
  match a with
  | Ok x => match b x with Ok y => P x y | Err _ => False end
  | Err _ => False
  end -> exists x y, a = Ok x /\ b x = Ok y /\ P x y.
Proof. destruct a as [x|]; [|tauto]. destruct (b x) eqn:E; [eauto 6|tauto]. Qed.

Lemma ok_ex3 {A B C} (a : res A) (b : A -> res B) (c : A -> B -> res C) (P : A -> B -> C -> Prop) :
  match a with
  | Ok x => match b x with
            | Ok y => match c x y with Ok z => P x y z | Err _ => False end
            | Err _ => False end
  | Err _ => False
  end -> exists x y z, a = Ok x /\ b x = Ok y /\ c x y = Ok z /\ P x y z.
Proof.
  destruct a as [x|]; [|tauto]. destruct (b x) as [y|] eqn:E; [|tauto].
  destruct (c x y) eqn:E2; [eauto 8|tauto].
Qed.

Ltac compute_ex :=
  first [apply ok_ex3 | apply ok_ex2 | apply ok_ex]; vm_compute;
  repeat match goal with |- _ /\ _ => split end;
  first [reflexivity | discriminate | idtac].
