(** * C54: what is on disk after a history of log calls, and after a crash *)
From Coq Require Import List ZArith QArith Bool String.
From Verif Require Import Base JsonLog_Model JsonLog_Spec JsonLog_Proofs ExTac.
Import ListNotations.
Open Scope Z_scope.

(** Between operations the log on disk is complete but for at most [write_every - 1] items. *)
Theorem C54_schedule : forall (A V : Type) (ser : list (Z * A) -> bool) we spe sp cost now (d0 : disk A V) ops s d l,
  0 < we -> 0 < spe -> ops <> [] ->
  jrun A V ser 0 (jnew we spe sp cost now) d0 ops = (None, s, d, l) ->
  data s = logged ops /\ exists r, f_log d = Full r /\ record_of r ops (we - 1).
Proof. exact record_main. Qed.
Print Assumptions C54_schedule.

(** The variables on disk were shown by an operation followed by at most
    [save_params_every - 1] calls. *)
Theorem C54_variables : forall (A V : Type) (ser : list (Z * A) -> bool) we spe cost now (d0 : disk A V) ops s d l,
  0 < we -> 0 < spe -> (0 < n_calls ops)%nat ->
  jrun A V ser 0 (jnew we spe true cost now) d0 ops = (None, s, d, l) ->
  exists v, f_pars d = Full v /\ recent v ops (spe - 1).
Proof. exact params_main. Qed.
Print Assumptions C54_variables.

(** [flush(state)] puts everything on disk. *)
Theorem C54_flush : forall (A V : Type) (ser : list (Z * A) -> bool) we spe sp cost now (d0 : disk A V) ops v t2 t3 s d l s' d' l',
  0 < we -> 0 < spe ->
  jrun A V ser 0 (jnew we spe sp cost now) d0 ops = (None, s, d, l) ->
  jflush A V ser s d v t2 t3 = (None, s', d', l') ->
  f_log d' = Full (logged ops) /\ (forall w, v = Some w -> sp = true -> f_pars d' = Full w).
Proof. exact flush_main. Qed.
Print Assumptions C54_flush.

(** A crash at any point, also in a history that ends with an exception.  Missing from the
    full statement: the file may be torn, and then everything in it is lost
    ([C54_durable_refuted]). *)
Theorem C54_crash_partial : forall (A V : Type) (ser : list (Z * A) -> bool) we spe sp cost now (d0 : disk A V) ops e s d l,
  0 < we -> 0 < spe ->
  jrun A V ser 0 (jnew we spe sp cost now) d0 ops = (e, s, d, l) ->
  forall k y, In (k, y) l ->
    f_log y = Torn \/ (k = O /\ f_log y = f_log d0) \/
    exists r, f_log y = Full r /\
      (record_of r (firstn k ops) (we - 1) \/ record_of r (firstn (S k) ops) 0).
Proof. exact crash_main. Qed.
Print Assumptions C54_crash_partial.

(** Two calls with [write_every = 1]: a crash in the second one leaves nothing of the first. *)
Theorem C54_durable_refuted : exists (ops : list (jop Z Z)) s d l d1 d2,
  jrun Z Z (fun _ => true) 0 (jnew 1 1 true (5#1000) 0) (Disk Stale Stale) ops = (None, s, d, l) /\
  (exists a b c, l = a ++ (1%nat, d1) :: b ++ (1%nat, d2) :: c) /\ f_log d1 = Full [(0, 10)] /\ f_log d2 = Torn.
Proof.
  exists [JCall 0 10 7 5 6 7; JCall 1 11 8 9 10 11]. do 5 eexists. split; [vm_compute; reflexivity|]. split.
  - exists [(0%nat, Disk (A:=Z) (V:=Z) Stale Stale); (0%nat, Disk Torn Stale); (0%nat, Disk (Full [(0,10)]) Stale);
      (0%nat, Disk (Full [(0,10)]) Stale); (0%nat, Disk (Full [(0,10)]) Torn); (0%nat, Disk (Full [(0,10)]) (Full 7));
      (0%nat, Disk (Full [(0,10)]) (Full 7))], [].
    eexists. cbn. reflexivity.
  - split; reflexivity.
Qed.
Print Assumptions C54_durable_refuted.

(** An item that cannot be serialised destroys what was on disk. *)
Theorem C54_serialise_refuted : exists (ser : list (Z * Z) -> bool) (ops : list (jop Z Z)) s d l,
  jrun Z Z ser 0 (jnew 1 1 true (5#1000) 0) (Disk Stale Stale) ops = (Some TypeError, s, d, l) /\
  In (1%nat, Disk (Full [(0, 10)]) (Full 7)) l /\ f_log d = Torn.
Proof.
  exists (forallb (fun p => snd p <? 11)), [JCall 0 10 7 5 6 7; JCall 1 11 8 9 10 11].
  do 3 eexists. split; [vm_compute; reflexivity|]. split; [cbn; tauto|reflexivity].
Qed.
Print Assumptions C54_serialise_refuted.

(** A call at a moment when the clock shows the same time as at the last flush raises a
    division by zero, whatever is logged, and writes nothing. *)
Theorem C54_clock_refuted : forall (A V : Type) (ser : list (Z * A) -> bool) s (d : disk A V) step x v t2 t3,
  exists s', jcall A V ser s d step x v (last_flush_time A s) t2 t3 = (Some ZeroDivisionError, s', d, [d]).
Proof. exact clock_main. Qed.
Print Assumptions C54_clock_refuted.

(** The modes: writing is always possible, "fail" exactly when none of the files exists, and
    nothing else is accepted. *)
Theorem C54_mode : forall mode le me,
  check_mode mode le me =
  if String.eqb mode "w" || String.eqb mode "write" then Ok "write"%string
  else if (String.eqb mode "x" || String.eqb mode "fail") && negb (le || me) then Ok "fail"%string
  else Err ValueError.
Proof. exact mode_main. Qed.
Print Assumptions C54_mode.

(** Five calls with [write_every = 3] and a cost of zero (no extra flushes): the last item is
    not on disk. *)
Example C54_schedule_ex : exists s d l,
  jrun Z Z (fun _ => true) 0 (jnew 3 2 true 0 0) (Disk Stale Stale)
    [JCall 0 10 7 5 6 7; JCall 1 11 8 9 10 11; JCall 2 12 9 12 13 14; JCall 3 13 10 15 16 17; JCall 4 14 11 18 19 20]
    = (None, s, d, l) /\
  f_log d = Full [(0, 10); (1, 11); (2, 12); (3, 13)] /\ f_pars d = Full 11.
Proof. do 3 eexists. split; [vm_compute; reflexivity|]. split; reflexivity. Qed.
Example C54_flush_ex : exists s' d' l',
  jflush Z Z (fun _ => true) (JLog Z 3 2 true 0 [(0, 10); (1, 11)] 1 1 1 6 1) (Disk (Full [(0, 10)]) (Full 7)) (Some 8) 20 21
    = (None, s', d', l') /\ f_log d' = Full [(0, 10); (1, 11)] /\ f_pars d' = Full 8.
Proof. do 3 eexists. split; [vm_compute; reflexivity|]. split; reflexivity. Qed.
Example C54_mode_ex : check_mode "x" false true = Err ValueError /\ check_mode "fail" false false = Ok "fail"%string.
Proof. split; reflexivity. Qed.
