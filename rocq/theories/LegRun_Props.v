(** * Properties of runs of the legacy drivers *)
From Coq Require Import String List ZArith Bool Lia.
From Verif Require Import Base Driver_Spec LegRun_Model LegRun_Spec.
From Verif Require LegRun_Final.
Import ListNotations.
Open Scope Z_scope.

(** C105.  A run that returns has performed blocks of [step] updates until [n] is covered, or
    until the first look at which a callback objects (the update of that look is not made).
    On the first rank with an output, the log file then lists all looks after what the logger
    already had, the other file holds the final parameters, and in between nothing else is
    ever on the disk than the old file, a file being written, or a prefix of the log.  Without
    output, or on another rank, no file is touched. *)
Theorem C105_run : forall (W G D V : Type) fb up est pars cbs ser rank out save_every write_every n step c w (d : disk D V) (s' : st W D V),
  0 < step ->
  (forall l, used rank out save_every write_every = Some l -> fresh l) ->
  run (G := G) fb up est pars cbs ser rank out true save_every write_every n step c w d = (None, s') ->
  exists es,
    ((covers n step (length es) /\ blocks fb up est pars cbs (Z.to_nat step) c w es (count s') (world s') /\
      n_updates s' = (length es * Z.to_nat step)%nat)
     \/
     (exists es0 e w0 g oks k, es = es0 ++ [e] /\ covers n step k /\ (length es <= k)%nat /\
        blocks fb up est pars cbs (Z.to_nat step) c w es0 (count s') w0 /\ looked fb est pars cbs (count s') w0 g e oks (world s') /\
        In false oks /\ n_updates s' = (length es0 * Z.to_nat step)%nat)) /\
    match used rank out save_every write_every with
    | None => log s' = None
    | Some l => exists x, log s' = Some x /\
        f_log (dk x) = Full (output l ++ map item_of es) /\ f_wf (dk x) = Full (pars (world s')) /\
        output (jl x) = output l ++ map item_of es /\
        Forall (fun b => (found_log (f_log d) (output l) es (f_log b) \/ f_log b = f_log (dk x))
          /\ found_wf (f_wf d) (map saved es ++ [pars (world s')]) (f_wf b)) (seen x)
    end.
Proof. exact LegRun_Final.run_main. Qed.
Print Assumptions C105_run.

(** C105.  If no callback raises, the data can be serialised and no interval is zero, the run
    returns. *)
Theorem C105_returns : forall (W G D V : Type) fb up est pars cbs ser,
  Forall (fun cb => forall c d w, exists r, cb c d w = Ok r) cbs ->
  (forall its, ser its = true) ->
  forall rank out save_every write_every n step c w (d : disk D V), step <> 0 ->
  (forall l, used rank out save_every write_every = Some l -> LegRun_Model.write_every l <> 0 /\ LegRun_Model.save_every l <> 0) ->
  fst (run (W := W) (G := G) fb up est pars cbs ser rank out true save_every write_every n step c w d) = None.
Proof. exact LegRun_Final.run_fine. Qed.
Print Assumptions C105_returns.

(** C105.  While the logger is in use, after any number of calls, the log file lacks fewer
    than write_every of the last entries, the other file holds the parameters of one of the
    last save_every calls, and every state of the disk on the way was one of those allowed. *)
Theorem C105_lag : forall (D V : Type) ser (l : jlog D) (d : disk D V) es x,
  fresh l -> es <> [] -> calls ser (Lst l d [d]) es x ->
  (exists r, (r < length es)%nat /\ Z.of_nat r < write_every l /\ f_log (dk x) = Full (output l ++ map item_of (firstn (length es - r) es))) /\
  (exists r e, Z.of_nat r < save_every l /\ nth_error (rev es) r = Some e /\ f_wf (dk x) = Full (saved e)) /\
  Forall (fun b => found_log (f_log d) (output l) es (f_log b) /\ found_wf (f_wf d) (map saved es) (f_wf b)) (seen x).
Proof. exact @LegRun_Final.lag_main. Qed.
Print Assumptions C105_lag.

(** C105.  The modes: write starts anew; fail refuses if one of the files exists; append
    continues a complete log and refuses an unreadable one; nothing else is accepted. *)
Theorem C105_modes : forall (D V : Type) mode save_every write_every (d : disk D V),
  (In mode ["w"; "write"]%string -> open_log mode save_every write_every d = Ok (JLog write_every save_every [] 0 0 0)) /\
  (In mode ["x"; "fail"]%string -> open_log mode save_every write_every d =
     if present (f_log d) || present (f_wf d) then Err ValueError else Ok (JLog write_every save_every [] 0 0 0)) /\
  (In mode ["a"; "append"]%string -> open_log mode save_every write_every d =
     match f_log d, f_wf d with
     | Full items, _ => Ok (JLog write_every save_every items 0 0 0)
     | Absent, Absent => Ok (JLog write_every save_every [] 0 0 0)
     | _, _ => Err ValueError
     end) /\
  (~ In mode ["w"; "write"; "x"; "fail"; "a"; "append"]%string -> open_log mode save_every write_every d = Err ValueError).
Proof. exact @LegRun_Final.modes_main. Qed.
Print Assumptions C105_modes.

(** C105.  A second run with a logger opened in mode append on the disk left by the first one
    leaves the entries of both runs, in order. *)
Theorem C105_append : forall (W G D V : Type) fb up est pars cbs ser se we se' we' n n' step step' c w (d : disk D V) (s s' : st W D V) x l',
  0 < step -> 0 < step' -> 0 < se -> 0 < we -> 0 < se' -> 0 < we' ->
  run (G := G) fb up est pars cbs ser 0 Path true se we n step c w d = (None, s) ->
  log s = Some x ->
  open_log "append" se' we' (dk x) = Ok l' ->
  run (G := G) fb up est pars cbs ser 0 (Logger l') true 0 0 n' step' (count s) (world s) (dk x) = (None, s') ->
  exists es es' x', log s' = Some x' /\
    f_log (dk x) = Full (map item_of es) /\ f_log (dk x') = Full (map item_of es ++ map item_of es') /\
    (exists wa, blocks fb up est pars cbs (Z.to_nat step) c w es (count s) wa \/
      exists e es0, es = es0 ++ [e] /\ blocks fb up est pars cbs (Z.to_nat step) c w es0 (count s) wa) /\
    (exists wa, blocks fb up est pars cbs (Z.to_nat step') (count s) (world s) es' (count s') wa \/
      exists e es0, es' = es0 ++ [e] /\ blocks fb up est pars cbs (Z.to_nat step') (count s) (world s) es0 (count s') wa).
Proof. exact LegRun_Final.append_main. Qed.
Print Assumptions C105_append.

(** C105 fails: a run is not always of [n] updates; one of three steps in twos makes four. *)
Theorem C105_overshoot_refuted : exists (s' : st Z Z Z),
  run (fun w => (1, w)) Z.add (fun w => (w, w)) (fun w => w) [] (fun _ => true) 0 NoOut true 50 50 3 2 0 0 (Disk Absent Absent) = (None, s') /\
  n_updates s' = 4%nat /\ count s' = 4.
Proof. exact LegRun_Final.overshoot. Qed.
Print Assumptions C105_overshoot_refuted.

(** C105 fails: the callbacks of each rank are asked separately, so that ranks that disagree
    stop at different updates. *)
Theorem C105_ranks_refuted : exists (veto pass : Z -> Z -> Z -> res (bool * Z)) (s0 s1 : st Z Z Z),
  run (fun w => (1, w)) Z.add (fun w => (w, w)) (fun w => w) [veto] (fun _ => true) 0 NoOut true 50 50 3 1 0 0 (Disk Absent Absent) = (None, s0) /\
  run (fun w => (1, w)) Z.add (fun w => (w, w)) (fun w => w) [pass] (fun _ => true) 1 NoOut true 50 50 3 1 0 0 (Disk Absent Absent) = (None, s1) /\
  n_updates s0 <> n_updates s1.
Proof. exact LegRun_Final.ranks. Qed.
Print Assumptions C105_ranks_refuted.

(** C105 fails: the log does not survive a crash at every point; while it is rewritten, it is
    neither the old nor the new one. *)
Theorem C105_crash_refuted : exists (l : jlog Z) (d : disk Z Z) x b,
  open_log "append" 50 50 d = Ok l /\ (exists items, items <> [] /\ f_log d = Full items) /\
  log_call (fun _ => true) 7 7 7 (Lst l d [d]) = (None, x) /\ In b (seen x) /\ f_log b = Torn.
Proof. exact LegRun_Final.crash. Qed.
Print Assumptions C105_crash_refuted.

(** C105 fails: an entry that cannot be serialised raises, and destroys the log there was. *)
Theorem C105_unserialisable_refuted : exists (l : jlog Z) (d : disk Z Z) ser x,
  open_log "append" 50 50 d = Ok l /\ (exists items, items <> [] /\ f_log d = Full items /\ ser items = true) /\
  log_call ser 7 7 7 (Lst l d [d]) = (Some TypeError, x) /\ f_log (dk x) = Torn.
Proof. exact LegRun_Final.unserialisable. Qed.
Print Assumptions C105_unserialisable_refuted.

(** C105 fails: observables given as a list, as the documentation allows, raise at the first
    look, whatever they are. *)
Theorem C105_list_refuted : forall (W G D V : Type) fb up est pars cbs ser rank out se we n step c w (d : disk D V),
  0 < step -> 0 < n ->
  fst (run (W := W) (G := G) fb up est pars cbs ser rank out false se we n step c w d) = Some TypeError.
Proof. exact LegRun_Final.list_obs. Qed.
Print Assumptions C105_list_refuted.

(** C105 fails: reset never resets; it raises and leaves the counter. *)
Theorem C105_reset_refuted : forall (W : Type) (reset_sampler : W -> W) c w,
  reset reset_sampler c w = (Some AttributeError, c, reset_sampler w).
Proof. exact LegRun_Final.reset_raises. Qed.
Print Assumptions C105_reset_refuted.

(** Five steps in twos with a path, and a callback objecting at step four *)
Example C105_run_case :
  let cb := fun (c : Z) (_ w : Z) => Ok (negb (c =? 4), w) in
  let r := run (fun w => (1, w)) Z.add (fun w => (10 * w, w)) (fun w => w) [cb] (fun _ => true) 0 Path true 50 2 9 2 0 0 (Disk Absent (Full 77)) in
  fst r = None /\ count (snd r) = 4 /\ n_updates (snd r) = 4%nat /\
  option_map dk (log (snd r)) = Some (Disk (Full [(0, 0); (2, 20); (4, 40)]) (Full 4)) /\
  fresh (D := Z) (JLog 2 50 [] 0 0 0) /\ length (match log (snd r) with Some x => seen x | None => [] end) = 11%nat.
Proof. vm_compute. repeat split; discriminate || reflexivity. Qed.
Example C105_append_case :
  let r := run (fun w => (1, w)) Z.add (fun w => (10 * w, w)) (fun w => w) [] (fun _ => true) 0 Path true 50 2 3 1 0 0 (Disk (Absent (X := list (Z * Z))) Absent) in
  match log (snd r) with
  | Some x =>
      match open_log "append" 50 50 (dk x) with
      | Ok l => option_map (fun x => f_log (dk x)) (log (snd (run (fun w => (1, w)) Z.add (fun w => (10 * w, w)) (fun w => w) [] (fun _ => true) 0 (Logger l) true 0 0 2 1
          (count (snd r)) (world (snd r)) (dk x)))) = Some (Full [(0, 0); (1, 10); (2, 20); (3, 30); (4, 40)])
      | Err _ => False
      end
  | None => False
  end.
Proof. vm_compute. reflexivity. Qed.
Example C105_lag_case :
  let d := Disk (Full [(9, 9)]) Torn in
  exists x, calls (fun _ => true) (Lst (JLog 3 2 [(9, 9)] 0 0 0) d [d]) [(0, 0, 0); (1, 1, 1)] x /\
    f_log (dk x) = Full [(9, 9); (0, 0)] /\ f_wf (dk x) = Full 0.
Proof.
  intros d. set (x0 := Lst (JLog 3 2 [(9, 9)] 0 0 0) d [d]).
  exists (snd (log_call (fun _ => true) 1 1 1 (snd (log_call (fun _ => true) 0 0 0 x0)))). split.
  - apply (calls_more _ x0 0 0 0 _ (snd (log_call (fun _ => true) 0 0 0 x0))); [vm_compute; reflexivity|].
    apply (calls_more _ _ 1 1 1 [] (snd (log_call (fun _ => true) 1 1 1 (snd (log_call (fun _ => true) 0 0 0 x0))))); [vm_compute; reflexivity|apply calls_none].
  - vm_compute. split; reflexivity.
Qed.
