(** C53 (EarlyStopping) and C62 (Timeout) *)
From Coq Require Import List ZArith QArith Bool Lia.
From Verif Require Import Base Callbacks_Model Callbacks_Spec Callbacks_Proofs.
Import ListNotations.
Open Scope Z_scope.

(** C53: EarlyStopping answers "go on" as long as the loss has improved by more than
    min_delta within the last [patience] steps and the baseline is not reached.  (The
    other direction, that it stops otherwise, is refuted below.) *)
Theorem C53_continues_partial :
  forall c q h n,
    ordered h -> (0 <= min_delta c)%Q -> baseline c = option_map Fin q ->
    ~ hits q h n ->
    (exists m, improves (min_delta c) h m /\ within (patience c) h m n) ->
    nth_error (early_calls c early_init (fin_hist h)) n = Some true.
Proof. exact continues_main. Qed.
Print Assumptions C53_continues_partial.

(** What it does exactly, for every history of finite losses: min_delta plays no role, and
    a loss equal to the lowest one counts as an improvement. *)
Theorem C53_exact :
  forall c q h n b,
    ordered h -> 0 < patience c -> (0 <= min_delta c)%Q -> baseline c = option_map Fin q ->
    nth_error h n = Some b ->
    (nth_error (early_calls c early_init (fin_hist h)) n = Some true <->
     ~ hits q h n /\ exists m, lowest h m /\ within (patience c) h m n).
Proof. exact exact_main. Qed.
Print Assumptions C53_exact.

(** Whatever min_delta and patience: arbitrarily late there is a history without any
    improvement within the last [patience] steps that is not stopped. *)
Theorem C53_stops_refuted :
  forall d p, (0 <= d)%Q -> 0 < p -> forall n : nat, p <= Z.of_nat n ->
  exists h, ordered h /\ (n < length h)%nat /\
    (forall m, improves d h m -> ~ within p h m n) /\
    nth_error (early_calls (Early d p None) early_init (fin_hist h)) n = Some true.
Proof. exact plateau_main. Qed.
Print Assumptions C53_stops_refuted.

(** A run whose losses are NaN is never stopped. *)
Theorem C53_nan_refuted :
  forall c steps, early_calls c early_init (map (fun s => (s, NaN)) steps) = map (fun _ => true) steps.
Proof. exact nan_main. Qed.
Print Assumptions C53_nan_refuted.

(** A loss that falls by 1/10 for three steps and then rises: patience 2. *)
Example C53_ex :
  let h := [(0, 1%Q); (1, (9#10)%Q); (2, (8#10)%Q); (3, 1%Q); (4, 1%Q); (5, 1%Q)] in
  let c := Early (1#20) 2 (Some (Fin (1#2))) in
  ordered h /\ ~ hits (Some (1#2)%Q) h 3 /\ improves (1#20) h 2 /\ within 2 h 2 3 /\
  early_calls c early_init (fin_hist h) = [true; true; true; true; false; false].
Proof.
  cbv zeta. split; [|split; [|split; [|split; [|vm_compute; reflexivity]]]].
  - intros i j a b Hij Ea Eb.
    destruct i as [|[|[|[|[|[|i]]]]]], j as [|[|[|[|[|[|j]]]]]]; cbn in Ea, Eb; try lia;
      try (injection Ea as <-); try (injection Eb as <-); cbn; try lia; try (destruct j; discriminate); destruct i; discriminate.
  - intros (b & q & E1 & E2 & H). injection E1 as <-. injection E2 as <-. apply Qle_bool_iff in H. vm_compute in H. discriminate.
  - exists (2, (8#10)%Q). split; [reflexivity|]. intros i a Hi Ea. destruct i as [|[|i]]; [| |lia];
      injection Ea as <-; cbn [snd]; reflexivity.
  - exists (2, (8#10)%Q), (3, 1%Q). repeat split; lia.
Qed.

(** C62: Timeout lets the first call pass and stops at exactly those later calls at which
    at least [timeout] has passed since the first one; only positive timeouts are
    accepted. *)
Theorem C62_timeout :
  forall timeout (readings : list (Z * Z)) t1 t2,
    timeout_calls timeout None ((t1, t2) :: readings)
    = true :: map (fun r => negb (timeout <=? snd r - t1)) readings.
Proof. exact (fun timeout readings t1 t2 => timeout_main timeout readings (t1, t2)). Qed.
Print Assumptions C62_timeout.
Theorem C62_positive :
  forall timeout, (timeout_new timeout = Ok None <-> 0 < timeout) /\
                  (timeout_new timeout = Err AssertionError <-> timeout <= 0).
Proof. exact timeout_new_main. Qed.
Print Assumptions C62_positive.
Example C62_ex : timeout_calls 10 None [(100, 100); (105, 106); (109, 110); (115, 115)] = [true; true; false; false].
Proof. reflexivity. Qed.
