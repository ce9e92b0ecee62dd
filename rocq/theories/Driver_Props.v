(** C52: the optimisation loop.  The events of the calls of forward/backward pass, of the
    callbacks, of the loggers and of the parameter updates are looked at; [replays] says
    that the events are what really happened to the state. *)
From Coq Require Import List ZArith Bool Lia.
From Verif Require Import Base Driver_Model Driver_Spec Driver_Proofs.
Import ListNotations.
Open Scope Z_scope.

(** A run that ends without exception consists of k blocks of [step] steps.  Every block
    starts with one call of every callback and of every logger, at the steps
    start, start + step, ...  Either no callback vetoes: then the run has the smallest
    number of blocks that covers n steps, and every gradient is applied once, in order.
    Or the first veto (of this rank or another one) comes at the start of block j: then
    the gradient computed there is not applied and all earlier ones are.  In the end every
    logger is flushed once. *)
Theorem C52_run :
  forall (W G D : Type) fb up est cbs lgs fls others n step (s s' : dstate W G D),
    0 < step ->
    run W G D fb up est cbs lgs fls others n step s = (None, s') ->
    exists t blocks k,
      trace s' = trace s ++ t /\
      replays fb up est cbs lgs fls (world s) t (world s') /\
      covers n step blocks /\
      yields t = ladder (count s) step k /\
      (forall i, (i < length lgs)%nat -> logged i t = yields t) /\
      (forall i, (i < length cbs)%nat -> map fst (asked i t) = yields t) /\
      (exists t0, t = t0 ++ map Flush (seq 0 (length fls)) /\ flushed t0 = []) /\
      count s' = count s + Z.of_nat (length (updates t)) /\
      ((k = blocks /\ length (updates t) = (blocks * Z.to_nat step)%nat /\ updates t = gradients t /\
        vetoed t = [] /\ (cbs <> [] -> forall i, (i < blocks)%nat -> others i = false))
       \/
       (exists j, k = S j /\ (k <= blocks)%nat /\ cbs <> [] /\
          length (gradients t) = S (j * Z.to_nat step) /\
          updates t = firstn (j * Z.to_nat step) (gradients t) /\
          (vetoed t <> [] \/ others j = true) /\
          Forall (eq (count s + Z.of_nat j * step)) (vetoed t) /\
          (forall i, (i < j)%nat -> others i = false))).
Proof. exact run_main. Qed.
Print Assumptions C52_run.

(** The log data of a block are estimated once, go through the callbacks in turn, each of
    which gets what the one before returned, and what the last one returned is what every
    logger gets; the same for a run that ends with an exception. *)
Theorem C52_data :
  forall (W G D : Type) fb up est cbs lgs fls others n step (s s' : dstate W G D) r,
    run W G D fb up est cbs lgs fls others n step s = (r, s') ->
    exists t, trace s' = trace s ++ t /\ threaded None t.
Proof. exact (fun W G D fb up est cbs lgs fls others n step s s' r => run_threaded W G D fb up est cbs lgs fls others n step s r s'). Qed.
Print Assumptions C52_data.

(** A step size of zero is an error and nothing is done; with a negative one nothing is
    done apart from the flush, and no error is raised. *)
Theorem C52_zero :
  forall (W G D : Type) fb up est cbs lgs fls others n (s : dstate W G D),
    run W G D fb up est cbs lgs fls others n 0 s = (Some ValueError, s).
Proof. exact run_zero. Qed.
Print Assumptions C52_zero.
Theorem C52_negative :
  forall (W G D : Type) fb up est cbs lgs fls others n step (s : dstate W G D), step < 0 ->
    exists s', run W G D fb up est cbs lgs fls others n step s = (None, s') /\ count s' = count s /\
      trace s' = trace s ++ map Flush (seq 0 (length fls)) /\
      replays fb up est cbs lgs fls (world s) (map Flush (seq 0 (length fls))) (world s').
Proof. exact run_negative. Qed.
Print Assumptions C52_negative.

(** If [step] divides n and nobody vetoes, exactly n steps are performed. *)
Theorem C52_steps_partial :
  forall (W G D : Type) fb up est cbs lgs fls others n step (s s' : dstate W G D) t,
    0 < step -> 0 <= n -> (step | n) ->
    run W G D fb up est cbs lgs fls others n step s = (None, s') ->
    trace s' = trace s ++ t -> vetoed t = [] -> (forall k, others k = false) ->
    Z.of_nat (length (updates t)) = n /\ count s' = count s + n.
Proof. exact run_divides. Qed.
Print Assumptions C52_steps_partial.

(** Otherwise more are performed: run(3, step_size=2) takes 4 steps. *)
Theorem C52_steps_refuted :
  exists s' : dstate nat nat nat,
    run nat nat nat (fun w => (w, w)) (fun _ w => S w) (fun w => (w, w)) [] [] [] (fun _ => false) 3 2
        (DState 0 0%nat []) = (None, s') /\ length (updates (trace s')) = 4%nat /\ count s' = 4.
Proof. exact steps_refuted. Qed.
Print Assumptions C52_steps_refuted.

(** Ranks for which every mpi_any returns the same result take the same number of steps. *)
Theorem C52_ranks :
  forall (WA GA DA WB GB DB : Type) fbA upA estA cbsA lgsA flsA fbB upB estB cbsB lgsB flsB othersA othersB
         n step (sA : dstate WA GA DA) (sB : dstate WB GB DB) (sA' : dstate WA GA DA) (sB' : dstate WB GB DB) tA tB,
    0 < step -> cbsA <> [] -> cbsB <> [] ->
    run WA GA DA fbA upA estA cbsA lgsA flsA othersA n step sA = (None, sA') ->
    run WB GB DB fbB upB estB cbsB lgsB flsB othersB n step sB = (None, sB') ->
    trace sA' = trace sA ++ tA -> trace sB' = trace sB ++ tB ->
    (forall k, (k < length (yields tA))%nat -> (k < length (yields tB))%nat ->
       (any_veto tA (count sA) step othersA k <-> any_veto tB (count sB) step othersB k)) ->
    length (yields tA) = length (yields tB) /\ length (updates tA) = length (updates tB).
Proof. exact ranks_agree. Qed.
Print Assumptions C52_ranks.

(** An exception of a callback leaves the gradient of that step unapplied and no logger
    flushed. *)
Theorem C52_raised :
  forall (W G D : Type) fb up est cbs lgs fls others n step (s s' : dstate W G D) e,
    0 < step ->
    run W G D fb up est cbs lgs fls others n step s = (Some e, s') ->
    exists t j, trace s' = trace s ++ t /\ replays fb up est cbs lgs fls (world s) t (world s') /\
      flushed t = [] /\ count s' = count s + Z.of_nat (length (updates t)) /\
      length (gradients t) = S (j * Z.to_nat step) /\ updates t = firstn (j * Z.to_nat step) (gradients t).
Proof. exact run_raised. Qed.
Print Assumptions C52_raised.

(** advance(n) performs exactly n steps; advance(a) and advance(b) are advance(a + b). *)
Theorem C52_advance :
  forall (W G D : Type) fb up (s : dstate W G D) n, 0 <= n ->
    exists s' t, advance W G D fb up n s = (Continue, s') /\ trace s' = trace s ++ t /\
      count s' = count s + n /\ updates t = gradients t /\ Z.of_nat (length (updates t)) = n /\
      replays fb up (fun w => (tt, w)) [] [] [] (world s) (map (fun e => match e with
        | Gradient g => Gradient g | Update g => Update g | Yield z => Yield z
        | Estimate _ => Estimate tt | Callback i z _ _ b => Callback i z tt tt b
        | Log i z _ => Log i z tt | Flush i => Flush i end) t) (world s').
Proof. exact advance_final. Qed.
Print Assumptions C52_advance.
Theorem C52_advance_add :
  forall (W G D : Type) fb up (s s1 : dstate W G D) a b, 0 <= a -> 0 <= b ->
    advance W G D fb up a s = (Continue, s1) ->
    advance W G D fb up b s1 = advance W G D fb up (a + b) s.
Proof. exact (fun W G D fb up s s1 a b => advance_add W G D fb up a b s s1). Qed.
Print Assumptions C52_advance_add.

(** A run of 5 steps in blocks of 2, vetoed at step 102 by the second of two callbacks. *)
Example C52_ex :
  let cb1 := fun (step : Z) (d : nat) (w : nat) => Ok (true, S d, w) in
  let cb2 := fun (step : Z) (d : nat) (w : nat) => Ok (negb (step =? 102), d, w) in
  let r := run nat nat nat (fun w => (w, w)) (fun g w => (g + w + 1)%nat) (fun w => (w, w))
     [cb1; cb2] [fun _ _ w => w] [fun w => w] (fun _ => false) 5 2 (DState 100 3%nat []) in
  (fst r, count (snd r), length (updates (trace (snd r))), length (gradients (trace (snd r))),
   logged 0 (trace (snd r)), asked 1 (trace (snd r)))
  = (None, 102, 2%nat, 3%nat, [100; 102], [(100, true); (102, false)]).
Proof. vm_compute. reflexivity. Qed.
