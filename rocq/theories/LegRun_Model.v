(** * Runs of the legacy drivers and their log files
      (netket/legacy/abstract_variational_driver.py, netket/legacy/logging/_json_log.py)

    The machine, the sampler, the optimiser and the callbacks are one abstract world [W];
    gradient, update, estimates and callbacks act on it and are arbitrary.  The disk holds the
    two files of the logger; a file that has been opened for writing is [Torn] until the
    writing ends.  Every state of the disk is recorded, so that a crash can be put anywhere.
    Whether json can serialise the data is an oracle.  netket/logging/json_log_old.py is the
    same logger with other names of files.  The progress bar is left out. *)
From Coq Require Import String List ZArith Bool.
From Verif Require Import Base Driver_Model.
Import ListNotations.
Open Scope Z_scope.

(** ** the logger, _json_log.py *)
Section Log.
  Variables D V : Type.       (* statistics, what machine.save stores *)
  Notation item := (Z * D)%type.
  Variable serialisable : list item -> bool.
  Inductive file (X : Type) := Absent | Torn | Full (x : X).
  Arguments Absent {X}.
  Arguments Torn {X}.
  Arguments Full {X}.
  Record disk := Disk { f_log : file (list item); f_wf : file V }.
  Definition present {X} (f : file X) : bool := match f with Absent => false | _ => true end.

  Record jlog := JLog { write_every : Z; save_every : Z; output : list item; old_step : Z; nf_write : Z; nf_pars : Z }.
  (** 34-74; json.load of a torn file is a JSONDecodeError, which is a ValueError *)
  Definition open_log (mode : string) (save_every write_every : Z) (d : disk) : res jlog :=
    let mode := if String.eqb mode "w" then "write"%string else if String.eqb mode "a" then "append"%string
                else if String.eqb mode "x" then "fail"%string else mode in
    if negb (String.eqb mode "write" || String.eqb mode "append" || String.eqb mode "fail") then Err ValueError
    else
      let new := fun out => Ok (JLog write_every save_every out 0 0 0) in
      let exists_ := present (f_log d) || present (f_wf d) in
      if exists_ && String.eqb mode "append" then
        match f_log d with
        | Absent => Err ValueError
        | Torn => Err ValueError
        | Full out => new out
        end
      else if exists_ && String.eqb mode "fail" then Err ValueError
      else new [].

  (** A logger in use: the logger, the disk, and the states the disk went through. *)
  Record lst := Lst { jl : jlog; dk : disk; seen : list disk }.
  Definition write (x : lst) (l : jlog) (d : disk) : lst := Lst l d (seen x ++ [d]).
  Definition and_then (r : option exn * lst) (f : lst -> option exn * lst) : option exn * lst :=
    match r with (Some e, x) => (Some e, x) | (None, x) => f x end.
  (** 96-100: the file is emptied before the data is serialised *)
  Definition flush_log (x : lst) : option exn * lst :=
    let l := jl x in
    let x := write x l (Disk Torn (f_wf (dk x))) in
    if serialisable (output l)
    then (None, write x (JLog (write_every l) (save_every l) (output l) (old_step l) 0 (nf_pars l))
                  (Disk (Full (output l)) (f_wf (dk x))))
    else (Some TypeError, x).
  (** 102-104 *)
  Definition flush_params (v : V) (x : lst) : option exn * lst :=
    let l := jl x in
    let x := write x l (Disk (f_log (dk x)) Torn) in
    (None, write x (JLog (write_every l) (save_every l) (output l) (old_step l) (nf_write l) 0)
             (Disk (f_log (dk x)) (Full v))).
  (** 76-94 *)
  Definition log_call (step : Z) (data : D) (v : V) (x : lst) : option exn * lst :=
    let l := jl x in
    let x := Lst (JLog (write_every l) (save_every l) (output l ++ [(step, data)]) (old_step l) (nf_write l) (nf_pars l)) (dk x) (seen x) in
    and_then
      (let l := jl x in
       if write_every l =? 0 then (Some ZeroDivisionError, x)
       else if (nf_write l mod write_every l =? 0) || (step =? old_step l - 1) then flush_log x else (None, x))
      (fun x => and_then
        (let l := jl x in
         if save_every l =? 0 then (Some ZeroDivisionError, x)
         else if (nf_pars l mod save_every l =? 0) || (step =? old_step l - 1) then flush_params v x else (None, x))
        (fun x =>
           let l := jl x in
           (None, Lst (JLog (write_every l) (save_every l) (output l) step (nf_write l + 1) (nf_pars l + 1)) (dk x) (seen x)))).
  (** 106-116, called with the machine *)
  Definition log_flush (v : V) (x : lst) : option exn * lst := and_then (flush_log x) (flush_params v).
End Log.
Arguments Absent {X}.
Arguments Torn {X}.
Arguments Full {X}.
Arguments Disk {D V}.
Arguments f_log {D V}.
Arguments f_wf {D V}.
Arguments JLog {D}.
Arguments write_every {D}.
Arguments save_every {D}.
Arguments output {D}.
Arguments old_step {D}.
Arguments nf_write {D}.
Arguments nf_pars {D}.
Arguments open_log {D V}.
Arguments Lst {D V}.
Arguments jl {D V}.
Arguments dk {D V}.
Arguments seen {D V}.
Arguments log_call {D V}.
Arguments log_flush {D V}.
Arguments flush_log {D V}.
Arguments flush_params {D V}.

(** ** the driver, abstract_variational_driver.py *)
Section Legacy.
  Variables W G D V : Type.       (* world, gradient, statistics, what machine.save stores *)
  Variable forward_backward : W -> G * W.
  Variable update : G -> W -> W.
  Variable estimate : W -> D * W.
  Variable pars : W -> V.
  Variable callbacks : list (Z -> D -> W -> res (bool * W)).
  Variable serialisable : list (Z * D) -> bool.

  (** Step counter, world, logger in use, number of updates so far *)
  Record st := St { count : Z; world : W; log : option (lst D V); n_updates : nat }.
  Inductive outcome := Continue | Stop | Raised (e : exn).
  Definition set_world (s : st) (w : W) : st := St (count s) w (log s) (n_updates s).
  (** 243-248: all callbacks are called, also after a veto *)
  Fixpoint call_callbacks (cbs : list (Z -> D -> W -> res (bool * W))) (step : Z) (data : D) (stop : bool) (s : st) : outcome * st :=
    match cbs with
    | [] => (if stop then Stop else Continue, s)
    | cb :: cbs =>
        match cb step data (world s) with
        | Err e => (Raised e, s)
        | Ok (ok, w) => call_callbacks cbs step data (if ok then stop else true) (set_world s w)
        end
    end.
  (** 240-241 *)
  Definition call_logger (data : D) (s : st) : option exn * st :=
    match log s with
    | None => (None, s)
    | Some x => let (e, x) := log_call serialisable (count s) data (pars (world s)) x in (e, St (count s) (world s) (Some x) (n_updates s))
    end.
  (** 231-248: [obs_dict]: the observables are a dict, so that the loss can be added *)
  Definition body (obs_dict : bool) (step : Z) (s : st) : outcome * st :=
    let (data, w) := estimate (world s) in
    let s := set_world s w in
    if negb obs_dict then (Raised TypeError, s)
    else match call_logger data s with
         | (Some e, s) => (Raised e, s)
         | (None, s) => call_callbacks callbacks step data false s
         end.
  (** 269-277 *)
  Definition update_parameters (g : G) (s : st) : st := St (count s + 1) (update g (world s)) (log s) (S (n_updates s)).
  (** 151-157; the generator is closed when the loop of [run] is left *)
  Fixpoint inner (obs_dict : bool) (i m : nat) (s : st) : outcome * st :=
    match m with
    | O => (Continue, s)
    | S m =>
        let (g, w) := forward_backward (world s) in
        let s := set_world s w in
        let (o, s) := if (i =? 0)%nat then body obs_dict (count s) s else (Continue, s) in
        match o with
        | Continue => inner obs_dict (S i) m (update_parameters g s)
        | _ => (o, s)
        end
    end.
  Fixpoint outer (obs_dict : bool) (m : nat) (step : Z) (s : st) : outcome * st :=
    match m with
    | O => (Continue, s)
    | S m =>
        let (o, s) := inner obs_dict O (Z.to_nat step) s in
        match o with
        | Continue => outer obs_dict m step s
        | _ => (o, s)
        end
    end.
  (** 138-157: range() raises ValueError for step zero *)
  Definition loop (obs_dict : bool) (n step : Z) (s : st) : outcome * st :=
    if step =? 0 then (Raised ValueError, s) else outer obs_dict (range_len n step) step s.
  (** 252-253 *)
  Definition flush_logger (s : st) : option exn * st :=
    match log s with
    | None => (None, s)
    | Some x => let (e, x) := log_flush serialisable (pars (world s)) x in (e, St (count s) (world s) (Some x) (n_updates s))
    end.

  (** What is passed as [out]: nothing, a path, or a JsonLog. *)
  Inductive out_arg := NoOut | Path | Logger (l : jlog D).
  (** 168-253, on one rank, with the disk [d].  An exception leaves [run] without the final
      flush.  Ranks other than the first one use no logger. *)
  Definition run (rank : nat) (out : out_arg) (obs_dict : bool) (save_every write_every n step : Z) (c : Z) (w : W) (d : disk D V)
    : option exn * st :=
    let l :=
      if (rank =? 0)%nat then
        match out with
        | NoOut => Ok None
        | Path => let? l := open_log "w" save_every write_every d in Ok (Some (Lst l d [d]))
        | Logger l => Ok (Some (Lst l d [d]))
        end
      else Ok None in
    match l with
    | Err e => (Some e, St c w None 0)
    | Ok l =>
        match loop obs_dict n step (St c w l 0) with
        | (Raised e, s) => (Some e, s)
        | (_, s) => flush_logger s
        end
    end.
  (** 99-106, _vmc.py 218-220: step_count is a property without a setter *)
  Definition reset (reset_sampler : W -> W) (c : Z) (w : W) : option exn * Z * W := (Some AttributeError, c, reset_sampler w).
End Legacy.
Arguments St {W D V}.
Arguments count {W D V}.
Arguments world {W D V}.
Arguments log {W D V}.
Arguments n_updates {W D V}.
Arguments NoOut {D}.
Arguments Path {D}.
Arguments Logger {D}.
Arguments reset {W}.
Arguments run {W G D V}.
