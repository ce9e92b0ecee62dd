(** * The optimisation loop (netket/driver/abstract_variational_driver.py 152-289)

    The variational state, the optimiser, the callbacks and the loggers are one abstract
    world; the functions of the concrete driver, of the callbacks and of the loggers act
    on it and are arbitrary.  Callbacks may change the world and the log data and may
    raise; they do not change the step counter.  Every action leaves an event.  One MPI
    rank is modelled; what the other ranks contribute to the k-th [mpi_any] is an input.
    The progress bar is left out. *)
From Coq Require Import List ZArith Bool.
From Verif Require Import Base.
Import ListNotations.
Open Scope Z_scope.

(** len(range(0, n, step)) *)
Definition range_len (n step : Z) : nat :=
  if 0 <? step then Z.to_nat ((n + step - 1) / step)
  else Z.to_nat ((- n + - step - 1) / - step).

Section Driver.
  Variables W G D : Type.          (* world, gradient, log data *)
  Variable forward_backward : W -> G * W.
  Variable update_parameters : G -> W -> W.
  Variable estimate : W -> D * W.  (* 251-256: estimate(obs) and the loss *)
  Variable callbacks : list (Z -> D -> W -> res (bool * D * W)).
  Variable loggers : list (Z -> D -> W -> W).
  Variable flushes : list (W -> W).
  Variable others : nat -> bool.   (* veto of another rank in the k-th mpi_any *)

  Inductive event :=
  | Gradient (g : G)                                  (* _forward_and_backward *)
  | Yield (step : Z)
  | Estimate (d : D)
  | Callback (i : nat) (step : Z) (d d' : D) (ok : bool)
  | Log (i : nat) (step : Z) (d : D)
  | Update (g : G)                                    (* update_parameters *)
  | Flush (i : nat).

  Record dstate := DState { count : Z; world : W; trace : list event }.
  Definition emit (s : dstate) (w : W) (e : event) : dstate := DState (count s) w (trace s ++ [e]).

  Inductive outcome := Continue | Stop | Raised (e : exn).

  (** 261-263: all callbacks are called, also after a veto. *)
  Fixpoint call_callbacks (i : nat) (cbs : list (Z -> D -> W -> res (bool * D * W))) (step : Z) (d : D)
      (stop : bool) (s : dstate) : res (bool * D) * dstate :=
    match cbs with
    | [] => (Ok (stop, d), s)
    | cb :: cbs =>
        match cb step d (world s) with
        | Err e => (Err e, s)
        | Ok (ok, d', w) =>
            call_callbacks (S i) cbs step d' (if ok then stop else true) (emit s w (Callback i step d d' ok))
        end
    end.
  (** 265-266 *)
  Fixpoint call_loggers (i : nat) (ls : list (Z -> D -> W -> W)) (d : D) (s : dstate) : dstate :=
    match ls with
    | [] => s
    | l :: ls => call_loggers (S i) ls d (emit s (l (count s) d (world s)) (Log i (count s) d))
    end.
  (** 251-269: the body of the loop in [run]; [k] numbers the calls of mpi_any. *)
  Definition run_body (k : nat) (step : Z) (s : dstate) : outcome * dstate :=
    let (d, w) := estimate (world s) in
    let s := emit s w (Estimate d) in
    match call_callbacks O callbacks step d false s with
    | (Err e, s) => (Raised e, s)
    | (Ok (stop, d), s) =>
        let s := call_loggers O loggers d s in
        if (0 <? length callbacks)%nat && (stop || others k) then (Stop, s) else (Continue, s)
    end.

  (** 152-172: the generator [iter]; the consumer's body runs at every yield, and a
      consumer that leaves the loop closes the generator there. *)
  Section Iter.
    Variable body : nat -> Z -> dstate -> outcome * dstate.
    Fixpoint inner (k i m : nat) (s : dstate) : outcome * dstate :=
      match m with
      | O => (Continue, s)
      | S m =>
          let (g, w) := forward_backward (world s) in
          let s := emit s w (Gradient g) in
          let (o, s) := if (i =? 0)%nat then body k (count s) (emit s (world s) (Yield (count s))) else (Continue, s) in
          match o with
          | Continue =>
              let s := DState (count s + 1) (world s) (trace s) in
              inner k (S i) m (emit s (update_parameters g (world s)) (Update g))
          | _ => (o, s)
          end
      end.
    Fixpoint outer (k m : nat) (step : Z) (s : dstate) : outcome * dstate :=
      match m with
      | O => (Continue, s)
      | S m =>
          let (o, s) := inner k O (Z.to_nat step) s in
          match o with
          | Continue => outer (S k) m step s
          | _ => (o, s)
          end
      end.
    (** range() raises ValueError for step zero. *)
    Definition iter (n step : Z) (s : dstate) : outcome * dstate :=
      if step =? 0 then (Raised ValueError, s) else outer O (range_len n step) step s.
  End Iter.

  (** 174-181 *)
  Definition advance (steps : Z) (s : dstate) : outcome * dstate :=
    iter (fun _ _ s => (Continue, s)) steps 1 s.

  (** 286-287 *)
  Fixpoint call_flushes (i : nat) (fs : list (W -> W)) (s : dstate) : dstate :=
    match fs with
    | [] => s
    | f :: fs => call_flushes (S i) fs (emit s (f (world s)) (Flush i))
    end.
  (** 183-289.  An exception leaves [run] without the final flush. *)
  Definition run (n_iter step_size : Z) (s : dstate) : option exn * dstate :=
    match iter run_body n_iter step_size s with
    | (Raised e, s) => (Some e, s)
    | (_, s) => (None, call_flushes O flushes s)
    end.
End Driver.
Arguments Gradient {G D}.
Arguments Yield {G D}.
Arguments Estimate {G D}.
Arguments Callback {G D}.
Arguments Log {G D}.
Arguments Update {G D}.
Arguments Flush {G D}.
Arguments DState {W G D}.
Arguments count {W G D}.
Arguments world {W G D}.
Arguments trace {W G D}.
