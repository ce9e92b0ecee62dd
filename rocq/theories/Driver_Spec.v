(** * What a run is expected to do (C52), read off the events it leaves *)
From Coq Require Import List ZArith Bool.
From Verif Require Import Base Driver_Model.
Import ListNotations.
Open Scope Z_scope.

Section Spec.
  Context {G D : Type}.
  Notation trace := (list (event G D)).
  Definition gradients (t : trace) : list G := flat_map (fun e => match e with Gradient g => [g] | _ => [] end) t.
  Definition updates (t : trace) : list G := flat_map (fun e => match e with Update g => [g] | _ => [] end) t.
  Definition yields (t : trace) : list Z := flat_map (fun e => match e with Yield s => [s] | _ => [] end) t.
  (** steps at which logger [i] was called; the steps at which callback [i] was called and
      its answers; the flushes of logger [i]. *)
  Definition logged (i : nat) (t : trace) : list Z :=
    flat_map (fun e => match e with Log j s _ => if (j =? i)%nat then [s] else [] | _ => [] end) t.
  Definition asked (i : nat) (t : trace) : list (Z * bool) :=
    flat_map (fun e => match e with Callback j s _ _ ok => if (j =? i)%nat then [(s, ok)] else [] | _ => [] end) t.
  Definition flushed (t : trace) : list nat :=
    flat_map (fun e => match e with Flush i => [i] | _ => [] end) t.
  (** steps with a veto *)
  Definition vetoed (t : trace) : list Z :=
    flat_map (fun e => match e with Callback _ s _ _ false => [s] | _ => [] end) t.

  (** start, start + step, ..., k of them *)
  Definition ladder (start step : Z) (k : nat) : list Z :=
    map (fun j => start + Z.of_nat j * step) (seq 0 k).
End Spec.

(** The smallest number of blocks of [step] steps that cover [n] steps. *)
Definition covers (n step : Z) (k : nat) : Prop :=
  n <= Z.of_nat k * step /\ forall j : nat, n <= Z.of_nat j * step -> (k <= j)%nat.

(** Effect of an event on the world. *)
Section Replay.
  Context {W G D : Type}.
  Variable forward_backward : W -> G * W.
  Variable update_parameters : G -> W -> W.
  Variable estimate : W -> D * W.
  Variable callbacks : list (Z -> D -> W -> res (bool * D * W)).
  Variable loggers : list (Z -> D -> W -> W).
  Variable flushes : list (W -> W).
  (** [replays w t w']: from world [w] the events of [t], each of them being what the
      function of the driver, callback or logger does, lead to the world [w']. *)
  Inductive replays : W -> list (event G D) -> W -> Prop :=
  | rp_nil w : replays w [] w
  | rp_gradient w g w1 t w' : forward_backward w = (g, w1) -> replays w1 t w' -> replays w (Gradient g :: t) w'
  | rp_yield w s t w' : replays w t w' -> replays w (Yield s :: t) w'
  | rp_estimate w d w1 t w' : estimate w = (d, w1) -> replays w1 t w' -> replays w (Estimate d :: t) w'
  | rp_callback w i cb s d d' ok w1 t w' : nth_error callbacks i = Some cb -> cb s d w = Ok (ok, d', w1) ->
      replays w1 t w' -> replays w (Callback i s d d' ok :: t) w'
  | rp_log w i l s d t w' : nth_error loggers i = Some l -> replays (l s d w) t w' -> replays w (Log i s d :: t) w'
  | rp_update w g t w' : replays (update_parameters g w) t w' -> replays w (Update g :: t) w'
  | rp_flush w i f t w' : nth_error flushes i = Some f -> replays (f w) t w' -> replays w (Flush i :: t) w'.
End Replay.

(** The log data: made anew by the estimate after every yield, handed from there through
    the callbacks in turn, each of which may change them, and then to every logger.
    [cur] is the data in hand. *)
Fixpoint threaded {G D} (cur : option D) (t : list (event G D)) : Prop :=
  match t with
  | [] => True
  | Yield _ :: t => threaded None t
  | Estimate d :: t => cur = None /\ threaded (Some d) t
  | Callback _ _ d d' _ :: t => cur = Some d /\ threaded (Some d') t
  | Log _ _ d :: t => cur = Some d /\ threaded cur t
  | _ :: t => threaded cur t
  end.

(** Result of the k-th mpi_any, on a rank with the events [t] that started at [start]. *)
Definition any_veto {G D} (t : list (event G D)) (start step : Z) (others : nat -> bool) (k : nat) : Prop :=
  In (start + Z.of_nat k * step) (vetoed t) \/ others k = true.
