(** * What a run of a legacy driver is expected to do *)
From Coq Require Import List ZArith Bool.
From Verif Require Import Base LegRun_Model.
Import ListNotations.
Open Scope Z_scope.

Section Spec.
  Context {W G D V : Type}.
  Variable forward_backward : W -> G * W.
  Variable update : G -> W -> W.
  Variable estimate : W -> D * W.
  Variable pars : W -> V.
  Variable callbacks : list (Z -> D -> W -> res (bool * W)).

  (** [k] optimisation steps: gradient, update *)
  Inductive steps : nat -> W -> W -> Prop :=
  | steps_none w : steps 0 w w
  | steps_more k g w w1 w2 : forward_backward w = (g, w1) -> steps k (update g w1) w2 -> steps (S k) w w2.
  (** the callbacks are called in order; their answers *)
  Inductive answered (step : Z) (data : D) : list (Z -> D -> W -> res (bool * W)) -> W -> list bool -> W -> Prop :=
  | answered_none w : answered step data [] w [] w
  | answered_more cb cbs w ok w1 oks w2 : cb step data w = Ok (ok, w1) -> answered step data cbs w1 oks w2 ->
      answered step data (cb :: cbs) w (ok :: oks) w2.
  (** An entry of the log: step, statistics, and the parameters at that time. *)
  Notation entry := (Z * D * V)%type.
  Definition item_of (e : entry) : Z * D := fst e.
  Definition saved (e : entry) : V := snd e.
  (** A gradient is computed, the statistics are estimated and logged, the callbacks asked. *)
  Inductive looked (c : Z) (w : W) (g : G) (e : entry) (oks : list bool) (w3 : W) : Prop :=
  | looked_intro d w1 w2 : forward_backward w = (g, w1) -> estimate w1 = (d, w2) -> e = (c, d, pars w2) ->
      answered c d callbacks w2 oks w3 -> looked c w g e oks w3.
  (** Blocks of [step] updates, each with a look at its start at which nobody objects *)
  Inductive blocks (step : nat) : Z -> W -> list entry -> Z -> W -> Prop :=
  | blocks_none c w : blocks step c w [] c w
  | blocks_more c w g e oks w3 w4 es c' w' : looked c w g e oks w3 -> Forall (eq true) oks ->
      steps (step - 1) (update g w3) w4 -> blocks step (c + Z.of_nat step) w4 es c' w' -> blocks step c w (e :: es) c' w'.
End Spec.

Section Files.
  Context {D V : Type}.
  (** States of the two files that may be found on the disk, at any time while [es] are
      logged: as before, being written, or complete up to some entry. *)
  Definition found_log (before : file (list (Z * D))) (start : list (Z * D)) (es : list (Z * D * V)) (f : file (list (Z * D))) : Prop :=
    f = before \/ f = Torn \/ exists k, (0 < k <= length es)%nat /\ f = Full (start ++ map item_of (firstn k es)).
  Definition found_wf (before : file V) (vs : list V) (f : file V) : Prop :=
    f = before \/ f = Torn \/ exists v, In v vs /\ f = Full v.
  (** Successive calls of the logger, all successful *)
  Inductive calls (serialisable : list (Z * D) -> bool) : lst D V -> list (Z * D * V) -> lst D V -> Prop :=
  | calls_none x : calls serialisable x [] x
  | calls_more x c d v es x1 x2 : log_call serialisable c d v x = (None, x1) -> calls serialisable x1 es x2 ->
      calls serialisable x ((c, d, v) :: es) x2.
End Files.

(** A logger that has not been used yet *)
Definition fresh {D} (l : jlog D) : Prop := nf_write l = 0 /\ nf_pars l = 0 /\ 0 < write_every l /\ 0 < save_every l.
(** The logger used by a run: only the first rank has one.  A path means a new log. *)
Definition used {D} (rank : nat) (out : out_arg D) (save_every write_every : Z) : option (jlog D) :=
  match rank, out with
  | O, Path => Some (JLog write_every save_every [] 0 0 0)
  | O, Logger l => Some l
  | _, _ => None
  end.
