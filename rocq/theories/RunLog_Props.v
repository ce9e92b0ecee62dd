(** * Property C120: the runtime log holds every logged value at its place *)
From Coq Require Import String List Bool Arith Lia.
From Verif Require Import Base RunLog_Model RunLog_Spec RunLog_Proofs.
Import ListNotations.
Open Scope nat_scope.
Open Scope string_scope.

(** ** After any run in which no place changes between leaf, dictionary and sequence of one
    length, the history at every place is the list of steps and values logged there.  Keys
    may be missing at some steps, appear late, or hold None. *)
Theorem C120_run_partial :
  forall (N V : Type) f (log : list (N * tree V)),
  (forall s t, In (s, t) log -> has_form f t) ->
  exists a, run log = Ok a /\ forall p, history_at p a = logged p log.
Proof. exact (@RunLog_Proofs.run_ok). Qed.
Print Assumptions C120_run_partial.

Definition ex_form : form :=
  FDict (fun k => if String.eqb k "obs" then FDict (fun _ => FLeaf)
                  else if String.eqb k "pair" then FSeq 2 (fun _ => FLeaf) else FLeaf).
Definition ex_log : list (nat * tree nat) :=
  [(0, TDict [("Energy", TLeaf 10); ("obs", TDict [("x", TLeaf 1)]); ("pair", TSeq true [TLeaf 5; TNone])]);
   (2, TDict [("Energy", TLeaf 11); ("obs", TNone)]);
   (4, TDict [("obs", TDict [("y", TLeaf 3); ("x", TLeaf 2)]); ("Energy", TLeaf 12); ("pair", TSeq true [TLeaf 6; TLeaf 7])])].
Example C120_run_ex :
  (forall s t, In (s, t) ex_log -> has_form ex_form t) /\
  exists a, run ex_log = Ok a /\
    history_at [Key "Energy"] a = [(0, 10); (2, 11); (4, 12)] /\
    history_at [Key "obs"; Key "y"] a = [(4, 3)] /\
    history_at [Key "obs"; Key "x"] a = [(0, 1); (4, 2)] /\
    history_at [Key "pair"; Idx 1] a = [(4, 7)].
Proof.
  split; [|eexists; split; [vm_compute; reflexivity|]; repeat split].
  assert (forall i (t : tree nat) l, (forall u, In u l -> has_form FLeaf u) -> nth_error l i = Some t -> has_form FLeaf t) as Hn
    by (intros i t l H E; apply nth_error_In in E; auto).
  intros s t H. cbn in H.
  repeat (destruct H as [H|H]; [injection H as <- <-|]); [| | |contradiction];
    (constructor; [repeat constructor; cbn; intuition discriminate|]);
    intros k t H; cbn in H;
    repeat (destruct H as [H|H]; [injection H as <- <-; cbn|]); try contradiction; try (constructor; fail);
    try (constructor; [repeat constructor; cbn; intuition discriminate|];
         intros k t H; cbn in H; repeat (destruct H as [H|H]; [injection H as <- <-; constructor|]); contradiction);
    (constructor; [reflexivity|]; intros i t E; apply (Hn i t _) in E; [exact E|];
     intros u Hu; cbn in Hu; repeat (destruct Hu as [<-|Hu]; [constructor|]); contradiction).
Qed.

(** ** log[key] is the part of the data at that key *)
Theorem C120_item :
  forall (N V : Type) (a : acc N V) k b,
  item a k = Ok b -> forall p, history_at p b = history_at (Key k :: p) a.
Proof. exact (@RunLog_Proofs.item_ok). Qed.
Print Assumptions C120_item.
Theorem C120_item_present :
  forall (N V : Type) (a : acc N V) k p,
  history_at (Key k :: p) a <> [] -> exists b, item a k = Ok b.
Proof. exact (@RunLog_Proofs.item_present). Qed.
Print Assumptions C120_item_present.
Example C120_item_ex :
  exists a b, run ex_log = Ok a /\ item a "obs" = Ok b /\
    history_at [Key "obs"; Key "x"] a <> [] /\ history_at [Key "x"] b = [(0, 1); (4, 2)] /\
    item a "nothing" = Err KeyError /\ @item nat nat ANone "obs" = Err TypeError.
Proof. do 2 eexists. split; [vm_compute; reflexivity|]. repeat split. discriminate. Qed.

(** ** A place that changes between a leaf and a dictionary or sequence is an error *)
Theorem C120_mixed :
  forall (N V : Type) (s : N),
  (forall d (v : V), accum s (ADict d) (TLeaf v) = Err AttributeError) /\
  (forall b l (v : V), raises (accum s (ASeq b l) (TLeaf v))) /\
  (forall h k (t : tree V) l, accum s (AHist h) (TDict ((k, t) :: l)) = Err TypeError) /\
  (forall b os k (t : tree V) l, accum s (ASeq b os) (TDict ((k, t) :: l)) = Err AttributeError).
Proof. exact (@RunLog_Proofs.mixed). Qed.
Print Assumptions C120_mixed.
Example C120_mixed_ex :
  run [(0, TDict [("x", TLeaf 1)]); (1, TDict [("x", TDict [("y", TLeaf 2)])])] = Err TypeError.
Proof. reflexivity. Qed.

(** ** A sequence that gets shorter takes the histories of its other elements with it, and
    one that gets longer is cut, without an error *)
Theorem C120_shorter_refuted :
  exists (log : list (nat * tree nat)) a p,
    run log = Ok a /\ logged p log <> [] /\ history_at p a = [].
Proof.
  exists [(0, TSeq false [TLeaf 1; TLeaf 2]); (1, TSeq false [TLeaf 3])]. eexists. exists [Idx 1].
  split; [reflexivity|]. split; [discriminate|reflexivity].
Qed.
Print Assumptions C120_shorter_refuted.
Theorem C120_longer_refuted :
  exists (log : list (nat * tree nat)) a p,
    run log = Ok a /\ logged p log = [(1, 4)] /\ history_at p a = [].
Proof.
  exists [(0, TSeq false [TLeaf 1]); (1, TSeq false [TLeaf 3; TLeaf 4])]. eexists. exists [Idx 1].
  split; [reflexivity|]. split; reflexivity.
Qed.
Print Assumptions C120_longer_refuted.
