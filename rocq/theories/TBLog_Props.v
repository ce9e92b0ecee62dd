(** * C95: values sent to tensorboard *)
From Coq Require Import String Ascii List Bool.
From Verif Require Import Base TBLog_Model TBLog_Spec TBLog_Proofs.
Import ListNotations.
Open Scope string_scope.
Open Scope list_scope.

(** After any sequence of calls, the writer has been given the number [v] under the name [s]
    at step [k] exactly if some call at step [k] had [v] at a position spelled [s]. *)
Theorem C95_logged : forall (V : Type) (calls : list (nat * tree V)) s v k,
  In (s, v, k) (tb_run V [] calls) <-> exists t p, In (k, t) calls /\ tag p = s /\ at_path V t p true v.
Proof. exact history_main. Qed.
Print Assumptions C95_logged.
Example C95_logged_ex :
  tb_run nat [] [(0, TDict [("Energy", Compound (TDict [("Mean", Cplx 1 2); ("Var", Leaf true 3)])); ("x", TList [Leaf true 4; TNone])]); (5, TDict [("x", TList [Leaf true 6])])]
  = [("Energy/Mean/re", 1, 0); ("Energy/Mean/im", 2, 0); ("Energy/Var", 3, 0); ("x/0", 4, 0); ("x/0", 6, 5)].
Proof. reflexivity. Qed.

(** Calls are sent in order, and earlier ones are not affected by later ones. *)
Theorem C95_order : forall (V : Type) (calls : list (nat * tree V)) writer,
  tb_run V writer calls = writer ++ flat_map (fun c => tb_call V [] (fst c) (snd c)) calls.
Proof. exact run_main. Qed.
Print Assumptions C95_order.

(** If no key contains a slash, one call never uses the same name twice. *)
Theorem C95_once : forall (V : Type) step (t : tree V), good V t ->
  NoDup (map (fun c => fst (fst c)) (tb_call V [] step t)).
Proof. exact once_main. Qed.
Print Assumptions C95_once.
Example C95_once_ex : good nat (TDict [("a", TDict [("b", Leaf true 1)]); ("b", Cplx 2 3)]).
Proof.
  assert (N : forall s, In s ["a"; "b"] -> no_slash s).
  { intros s [<-|[<-|[]]] H; cbn in H; destruct H as [H|[]]; discriminate H. }
  apply GoodDict.
  - constructor; [intros [E|[]]; discriminate E|]. constructor; [intros []|constructor].
  - intros k t [E|[E|[]]]; injection E as <- <-; (split; [apply N; cbn; tauto|]); [|constructor].
    apply GoodDict; [constructor; [intros []|constructor]|].
    intros k t [E|[]]; injection E as <- <-. split; [apply N; cbn; tauto|constructor].
Qed.

(** With a slash in a key two values can be sent under the same name at the same step. *)
Theorem C95_slash_refuted : exists (t : tree nat) step, (forall l, t = TDict l -> NoDup (map fst l)) /\
  tb_call nat [] step t = [("a/b", 1, step); ("a/b", 2, step)].
Proof. exact slash_refuted. Qed.
Print Assumptions C95_slash_refuted.

(** Values that are not python numbers, such as arrays with one entry, are dropped. *)
Theorem C95_array_refuted : exists (t : tree nat) p v, at_path nat t p false v /\ forall step, tb_call nat [] step t = [].
Proof. exact array_refuted. Qed.
Print Assumptions C95_array_refuted.
