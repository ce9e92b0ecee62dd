(** * C56: the series of a history stay aligned *)
From Coq Require Import String List ZArith QArith Bool.
From Verif Require Import Base History_Model History_Spec History_Proofs.
Import ListNotations.
Open Scope nat_scope.

(** Appending a value for every key.  Missing from the full statement: values for some of the
    keys only, and failing appends (below). *)
Theorem C56_append_partial : forall bcast h items it h', aligned h ->
  NoDup (map fst items) -> (forall k, In k (map fst items) <-> In k (keys h)) ->
  append_dict bcast h items it = (None, h') ->
  aligned h' /\ hlen h' = S (hlen h) /\ keys h' = keys h /\
  forall k s, get k (vd h) = Some s -> exists s', get k (vd h') = Some s' /\ extended s s'.
Proof. exact append_main. Qed.
Print Assumptions C56_append_partial.

(** What accum_histories makes of the log of a run, in which each step logs the same
    quantities as floats: everything can be read back, at the right steps. *)
Theorem C56_run : forall bcast ks log (tr : list arg), NoDup ks -> ~ In "iters"%string ks -> log <> [] ->
  Forall2 (fun e a => length (snd e) = length ks /\ same_as (float_items ks (snd e)) a) log tr ->
  exists h, accum_run bcast None (combine (map (fun e : Z * list Q => NInt (fst e)) log) tr) = (None, Some h) /\
    keys h = ks /\ hlen h = length log /\
    get "iters" (vd h) = Some (SArr DInt [] (map (fun e => [NInt (fst e)]) log)) /\
    forall j k, nth_error ks j = Some k ->
      get k (vd h) = Some (SArr DFloat [] (map (fun e => [NFlt (nth j (snd e) 0%Q)]) log)).
Proof. exact run_main. Qed.
Print Assumptions C56_run.

(** The constructor, for values that are numbers and arrays. *)
Theorem C56_new_partial : forall a i h,
  match a with AVal v => numeric v | ACompound _ d | ADict d => Forall (fun e => numeric (snd e)) d /\ NoDup (map fst d) end ->
  new_history (Some a) i = Ok h -> aligned h.
Proof. exact new_main. Qed.
Print Assumptions C56_new_partial.

(** Concatenation of histories, if np.concatenate adds lengths. *)
Theorem C56_concatenate : forall concat h h2 it h',
  (forall a b s, concat a b = Ok s -> slen s = slen a + slen b) ->
  aligned h -> aligned h2 -> append_history concat h h2 it = (None, h') ->
  aligned h' /\ hlen h' = hlen h + hlen h2.
Proof. exact concat_main. Qed.
Print Assumptions C56_concatenate.

(** Slices [h[a:b]] of a history whose series are arrays. *)
Theorem C56_slice : forall h dt rows a b, aligned h ->
  (forall k s, In k (keys h) -> get k (vd h) = Some s -> is_array s) ->
  get "iters" (vd h) = Some (SArr dt [] rows) -> Forall (fun r => length r = 1) rows -> a <= b <= hlen h ->
  exists h', get_slice h a b = Ok h' /\ aligned h' /\ hlen h' = b - a /\ keys h' = keys h.
Proof. exact slice_main. Qed.
Print Assumptions C56_slice.

Definition nobc : list nat -> list nat -> list num -> option (list num) := fun _ _ _ => None.
Definition two : history :=
  Hist [("iters"%string, SArr DInt [] [[NInt 0]]); ("a"%string, SArr DFloat [] [[NFlt 1]]); ("b"%string, SArr DFloat [] [[NFlt 2]])]
    ["a"%string; "b"%string] 1 false None.
Example C56_two_ex : new_history (Some (ADict [("a"%string, VNum (NFlt 1)); ("b"%string, VNum (NFlt 2))])) (IScalar (NInt 0)) = Ok two.
Proof. reflexivity. Qed.

(** An append without one of the keys succeeds, and the series have different lengths. *)
Theorem C56_missing_key_refuted : exists h', aligned two /\
  append_dict nobc two [("a"%string, VNum (NFlt 3))] (VNum (NInt 1)) = (None, h') /\ ~ aligned h'.
Proof.
  eexists. split; [|split; [vm_compute; reflexivity|]].
  - apply (new_main (ADict [("a"%string, VNum (NFlt 1)); ("b"%string, VNum (NFlt 2))]) (IScalar (NInt 0))); [|exact C56_two_ex].
    split; repeat constructor; cbn; intuition; discriminate.
  - intros (_ & _ & _ & H). specialize (H "b"%string _ eq_refl). discriminate.
Qed.
Print Assumptions C56_missing_key_refuted.

(** An append that fails at its second key has changed the first series. *)
Theorem C56_failed_append_refuted : exists h',
  append_dict nobc two [("a"%string, VNum (NFlt 3)); ("c"%string, VNum (NFlt 4))] (VNum (NInt 1)) = (Some KeyError, h') /\
  get "a" (vd h') = Some (SArr DFloat [] [[NFlt 1]; [NFlt 3]]) /\ get "iters" (vd h') = Some (SArr DInt [] [[NInt 0]]).
Proof. eexists. split; [vm_compute; reflexivity|]. split; reflexivity. Qed.
Print Assumptions C56_failed_append_refuted.

(** Without [it], which is documented to count up, an append raises and leaves the value behind. *)
Theorem C56_no_iteration_refuted : exists h',
  append_dict nobc two [("a"%string, VNum (NFlt 3)); ("b"%string, VNum (NFlt 4))] VNone = (Some TypeError, h') /\
  get "a" (vd h') = Some (SArr DFloat [] [[NFlt 1]; [NFlt 3]]).
Proof. eexists. split; [vm_compute; reflexivity|reflexivity]. Qed.
Print Assumptions C56_no_iteration_refuted.

(** The empty history is not aligned; neither is a list of values with their iterations. *)
Theorem C56_empty_refuted : exists h, new_history None INone = Ok h /\ hlen h = 0 /\
  get "value" (vd h) = Some (SLst [VLst []]).
Proof. eexists. split; [vm_compute; reflexivity|]. split; reflexivity. Qed.
Print Assumptions C56_empty_refuted.
Theorem C56_list_refuted : exists h,
  new_history (Some (AVal (VLst [VNum (NInt 5); VNum (NInt 6)]))) (IList [NInt 0; NInt 1]) = Ok h /\ hlen h = 2 /\ ~ aligned h.
Proof.
  eexists. split; [vm_compute; reflexivity|]. split; [reflexivity|]. intros (_ & _ & _ & H).
  specialize (H "value"%string _ eq_refl). discriminate.
Qed.
Print Assumptions C56_list_refuted.

(** The dtype of the first value decides: after an integer, 1/2 is stored as 0; a fractional
    iteration is cut off as well. *)
Theorem C56_dtype_refuted : exists h,
  accum_run nobc None [(NInt 0, AVal (VNum (NInt 1))); (NFlt (3#2), AVal (VNum (NFlt (1#2))))] = (None, Some h) /\
  get "value" (vd h) = Some (SArr DInt [] [[NInt 1]; [NInt 0]]) /\ get "iters" (vd h) = Some (SArr DInt [] [[NInt 0]; [NInt 1]]).
Proof. eexists. split; [vm_compute; reflexivity|]. split; reflexivity. Qed.
Print Assumptions C56_dtype_refuted.

Example C56_append_ex : exists h',
  append_dict nobc two [("b"%string, VNum (NFlt 3)); ("a"%string, VNum (NFlt 4))] (VNum (NInt 7)) = (None, h') /\
  vd h' = [("iters"%string, SArr DInt [] [[NInt 0]; [NInt 7]]); ("a"%string, SArr DFloat [] [[NFlt 1]; [NFlt 4]]);
           ("b"%string, SArr DFloat [] [[NFlt 2]; [NFlt 3]])].
Proof. eexists. split; [vm_compute; reflexivity|reflexivity]. Qed.
Example C56_run_ex : let log := [(0%Z, [1%Q; 2%Q]); (5%Z, [3%Q; 4%Q])] in
  let tr := [ADict (float_items ["a"%string; "b"%string] [1%Q; 2%Q]); ACompound "a" (float_items ["a"%string; "b"%string] [3%Q; 4%Q])] in
  Forall2 (fun e a => length (snd e) = length ["a"%string; "b"%string] /\ same_as (float_items ["a"%string; "b"%string] (snd e)) a) log tr.
Proof.
  constructor; [split; [reflexivity|left; reflexivity]|]. constructor; [split; [reflexivity|right; eexists; reflexivity]|]. constructor.
Qed.
Example C56_slice_ex : exists h, get_slice two 0 1 = Ok h /\ vd h = vd two.
Proof. eexists. split; [vm_compute; reflexivity|reflexivity]. Qed.
Example C56_concatenate_ex : exists h, append_history (fun _ _ => Err ValueError) two two VNone = (None, h) /\
  get "b" (vd h) = Some (SArr DFloat [] [[NFlt 2]; [NFlt 2]]) /\ hlen h = 2.
Proof. eexists. split; [vm_compute; reflexivity|]. split; reflexivity. Qed.
