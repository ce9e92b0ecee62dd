(** * JsonLog (netket/logging/json_log.py)

    The disk holds the two files of the logger.  Opening a file for writing empties it;
    between that and the end of the writing the file is [Torn].  Every operation returns
    the states of the disk it goes through, so that a crash can be put anywhere.  The
    clock is read from the operation; whether orjson can serialise the data is an oracle.
    The history that is serialised is the list of the logged items (see C56). *)
From Coq Require Import List ZArith QArith Bool String.
From Verif Require Import Base.
Import ListNotations.
Open Scope Z_scope.

(** 73-125: the shorthands and checks of the mode; [log_exists], [mpack_exists]: the files
    are there already. *)
Definition check_mode (mode : string) (log_exists mpack_exists : bool) : res string :=
  let mode := if String.eqb mode "w" then "write"%string else if String.eqb mode "a" then "append"%string
              else if String.eqb mode "x" then "fail"%string else mode in
  if negb (String.eqb mode "write" || String.eqb mode "append" || String.eqb mode "fail") then Err ValueError
  else if String.eqb mode "append" then Err ValueError
  else if (log_exists || mpack_exists) && String.eqb mode "fail" then Err ValueError
  else Ok mode.

Section Log.
  Variables A V : Type.     (* logged item; variables of the state *)
  Notation item := (Z * A)%type.
  Variable serialisable : list item -> bool.

  (** [Stale]: absent, or left by an earlier run. *)
  Inductive file (X : Type) := Stale | Torn | Full (x : X).
  Arguments Stale {X}.
  Arguments Torn {X}.
  Arguments Full {X}.
  Record disk := Disk { f_log : file (list item); f_pars : file V }.

  Record jlog := JLog {
    write_every : Z; save_params_every : Z; save_params : bool; autoflush_cost : Q;
    data : list item; old_step : Z; notflushed_write : Z; notflushed_pars : Z;
    last_flush_time : Z; last_flush_runtime : Z }.

  (** 127-146 *)
  Definition jnew (we spe : Z) (sp : bool) (cost : Q) (now : Z) : jlog :=
    JLog we spe sp cost [] 0 0 0 now 0.

  (** Outcome of an operation: exception, logger, disk, and the states of the disk on the
      way. *)
  Definition step_result := (option exn * jlog * disk * list disk)%type.

  (** 175-183: the file is emptied before the data is serialised. *)
  Definition flush_log (s : jlog) (d : disk) (t2 t3 : Z) : step_result :=
    let s := JLog (write_every s) (save_params_every s) (save_params s) (autoflush_cost s) (data s) (old_step s)
               (notflushed_write s) (notflushed_pars s) t2 (last_flush_runtime s) in
    let d1 := Disk Torn (f_pars d) in
    if serialisable (data s) then
      let d2 := Disk (Full (data s)) (f_pars d) in
      (None, JLog (write_every s) (save_params_every s) (save_params s) (autoflush_cost s) (data s) (old_step s)
               0 (notflushed_pars s) t2 (t3 - t2), d2, [d; d1; d2])
    else (Some TypeError, s, d1, [d; d1]).

  (** 186-196: the variables are serialised before the file is emptied. *)
  Definition flush_params (s : jlog) (d : disk) (v : V) : step_result :=
    if negb (save_params s) then (None, s, d, [d])
    else
      let d1 := Disk (f_log d) Torn in
      let d2 := Disk (f_log d) (Full v) in
      (None, JLog (write_every s) (save_params_every s) (save_params s) (autoflush_cost s) (data s) (old_step s)
               (notflushed_write s) 0 (last_flush_time s) (last_flush_runtime s), d2, [d; d1; d2]).

  Definition and_then (r : step_result) (f : jlog -> disk -> step_result) : step_result :=
    match r with
    | (Some e, s, d, l) => (Some e, s, d, l)
    | (None, s, d, l) => match f s d with (e, s', d', l') => (e, s', d', l ++ l') end
    end.

  (** 149-172 *)
  Definition jcall (s : jlog) (d : disk) (step : Z) (x : A) (v : V) (t1 t2 t3 : Z) : step_result :=
    let old := old_step s in
    let s := JLog (write_every s) (save_params_every s) (save_params s) (autoflush_cost s) (data s ++ [(step, x)]) step
               (notflushed_write s) (notflushed_pars s) (last_flush_time s) (last_flush_runtime s) in
    let elapsed := t1 - last_flush_time s in
    if elapsed =? 0 then (Some ZeroDivisionError, s, d, [d]) else
    let flush_anyway := negb (Qle_bool (autoflush_cost s) (inject_Z (last_flush_runtime s) / inject_Z elapsed)) in
    if write_every s =? 0 then (Some ZeroDivisionError, s, d, [d]) else
    and_then
      (if (notflushed_write s mod write_every s =? 0) || (step =? old - 1) || flush_anyway
       then flush_log s d t2 t3 else (None, s, d, [d]))
      (fun s d =>
        if save_params_every s =? 0 then (Some ZeroDivisionError, s, d, [d]) else
        and_then
          (if (notflushed_pars s mod save_params_every s =? 0) || (step =? old - 1)
           then flush_params s d v else (None, s, d, [d]))
          (fun s d =>
            (None, JLog (write_every s) (save_params_every s) (save_params s) (autoflush_cost s) (data s) step
               (notflushed_write s + 1) (notflushed_pars s + 1) (last_flush_time s) (last_flush_runtime s), d, [d]))).

  (** 205-208 *)
  Definition jflush (s : jlog) (d : disk) (v : option V) (t2 t3 : Z) : step_result :=
    and_then (flush_log s d t2 t3)
      (fun s d => match v with Some v => flush_params s d v | None => (None, s, d, [d]) end).

  Inductive jop :=
  | JCall (step : Z) (x : A) (v : V) (t1 t2 t3 : Z)
  | JFlush (v : option V) (t2 t3 : Z).
  Definition exec (s : jlog) (d : disk) (o : jop) : step_result :=
    match o with
    | JCall step x v t1 t2 t3 => jcall s d step x v t1 t2 t3
    | JFlush v t2 t3 => jflush s d v t2 t3
    end.
  (** A history of operations, up to the first exception.  A snapshot is the state of the
      disk with the number of operations that have returned. *)
  Fixpoint jrun (n : nat) (s : jlog) (d : disk) (ops : list jop) : option exn * jlog * disk * list (nat * disk) :=
    match ops with
    | [] => (None, s, d, [(n, d)])
    | o :: ops =>
        match exec s d o with
        | (Some e, s, d, l) => (Some e, s, d, map (pair n) l)
        | (None, s, d, l) =>
            match jrun (S n) s d ops with (e, s', d', l') => (e, s', d', map (pair n) l ++ l') end
        end
    end.
End Log.
Arguments Stale {X}.
Arguments Torn {X}.
Arguments Full {X}.
Arguments Disk {A V}.
Arguments f_log {A V}.
Arguments f_pars {A V}.
Arguments JCall {A V}.
Arguments JFlush {A V}.
Arguments data {A}.
Arguments jnew {A}.
