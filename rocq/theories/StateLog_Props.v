(** * C55: checkpoints of StateLog *)
From Coq Require Import String List ZArith Bool Lia.
From Verif Require Import Base StateLog_Model StateLog_Spec StateLog_Proofs.
Import ListNotations.
Open Scope Z_scope.

(** A run that logs to a folder never raises; the due variables are in consecutively
    numbered files, everything else in the folder is as before (in write mode: no other
    checkpoint is left, everything else is as before).  This also holds at every crash
    point, for the calls that have returned.  Missing from the full statement: append to a
    folder without checkpoints, tar archives in fail and append mode (below). *)
Theorem C55_folder_partial : forall (V : Type) m se (d0 : store V) s d calls b, 0 < se ->
  snew V m false se d0 = Ok (s, d) -> first_number (mode s) checkpoint d0 b ->
  let vs := to_save se calls in
  let keep n := (forall i, (i < length vs)%nat -> n <> FNum (b + Z.of_nat i)) /\ (mode s = MWrite -> checkpoint n = false) in
  exists s' l snaps, srun V 0 s d calls = (None, s', Some l, snaps) /\
    holds b vs l /\ kept keep (entries V d0) l /\
    (mode s = MWrite -> calls <> [] -> forall n c, lookup n l = Some c -> checkpoint n = true ->
       exists i, (i < length vs)%nat /\ n = FNum (b + Z.of_nat i)) /\
    (forall k y, In (k, y) snaps -> sofar b (to_save se (firstn k calls)) keep (entries V d0) y).
Proof. exact @folder_main. Qed.
Print Assumptions C55_folder_partial.

(** In append mode nothing that was in the folder is lost or changed, at any crash point. *)
Theorem C55_append_keeps : forall (V : Type) m se (d0 : store V) s d calls b, 0 < se ->
  snew V m false se d0 = Ok (s, d) -> mode s = MAppend -> first_number MAppend checkpoint d0 b ->
  exists s' l snaps, srun V 0 s d calls = (None, s', Some l, snaps) /\
    forall k y, In (k, y) snaps -> exists ly, y = Some ly /\
      forall n c, lookup n (entries V d0) = Some c -> lookup n ly = Some c.
Proof. exact @append_main. Qed.
Print Assumptions C55_append_keeps.

(** The same for a tar archive in write and append mode. *)
Theorem C55_tar_partial : forall (V : Type) m se (d0 : store V) s d calls b, 0 < se ->
  snew V m true se d0 = Ok (s, d) -> mode s <> MFail ->
  first_number (mode s) (fun _ => true) d0 b -> calls <> [] ->
  exists s' snaps, srun V 0 s d calls =
    (None, s', Some ((if match mode s with MAppend => true | _ => false end then entries V d0 else [])
                     ++ numbered b (to_save se calls)), snaps).
Proof. exact @tar_main. Qed.
Print Assumptions C55_tar_partial.

(** Append mode on a folder without checkpoints (also a new one): the first call raises
    IndexError, whatever is logged, and so does every later one, as nothing has changed. *)
Theorem C55_append_new_refuted : forall (V : Type) se (d0 : store V) step (v : V) calls, 0 < se ->
  (forall n c, In (n, c) (entries V d0) -> checkpoint n = false) ->
  exists s snaps, snew V "append" false se d0 = Ok (s, Some (entries V d0)) /\
    srun V 0 s (Some (entries V d0)) ((step, v) :: calls) = (Some IndexError, s, Some (entries V d0), snaps).
Proof. exact @append_new_main. Qed.
Print Assumptions C55_append_new_refuted.

(** A tar archive in fail mode: every run raises ValueError, although the file does not exist. *)
Theorem C55_tar_fail_refuted : forall (V : Type) se step (v : V) calls, 0 < se ->
  exists s snaps, snew V "fail" true se None = Ok (s, None) /\
    srun V 0 s None ((step, v) :: calls) = (Some ValueError, s, None, snaps).
Proof. exact @tar_fail_main. Qed.
Print Assumptions C55_tar_fail_refuted.

(** A new tar archive in append mode: the first call raises, the second one works. *)
Theorem C55_tar_append_new_refuted : forall (V : Type) se step (v : V) step' v', 0 < se ->
  exists s d s1 l s2 l', snew V "append" true se None = Ok (s, d) /\
    scall V s d step v = (Some IndexError, s1, Some [], l) /\
    scall V s1 (Some []) step' v' = (None, s2, Some [(FNum 0, Some v')], l').
Proof. exact @tar_append_new_main. Qed.
Print Assumptions C55_tar_append_new_refuted.

(** After [close()] a save to an archive raises and changes nothing. *)
Theorem C55_closed : forall (V : Type) s (d : store V) step (v : V),
  tar s = true -> tar_file s = true -> init s = true -> 0 < save_every s ->
  steps_notsaved s mod save_every s = 0 ->
  exists l, scall V (sclose s) d step v = (Some Exception_, sclose s, d, l).
Proof. exact @closed_main. Qed.
Print Assumptions C55_closed.

(** Appending to a folder with 3.mpack, 10.mpack and a text file, every second call. *)
Definition ex_store : store Z := Some [(FNum 3, Some 30); (FNum 10, Some 100); (FOther 0 None, Some 5)].
Example C55_first_ex : first_number MAppend checkpoint ex_store 11.
Proof.
  split; [|split].
  - intros n c [E|[E|[E|[]]]] Hn; injection E as <- <-; try discriminate; eexists; reflexivity.
  - exists (FNum 10), (Some 100). cbn. auto.
  - intros n c z [E|[E|[E|[]]]] Hn; injection E as <- <-; try discriminate; intros Hz; injection Hz as <-; lia.
Qed.
Example C55_run_ex : exists s d s' snaps, snew Z "a" false 2 ex_store = Ok (s, d) /\ mode s = MAppend /\
  srun Z 0 s d [(0, 1); (1, 2); (2, 3); (1, 4)] =
  (None, s', Some [(FNum 3, Some 30); (FNum 10, Some 100); (FOther 0 None, Some 5); (FNum 11, Some 1); (FNum 12, Some 3); (FNum 13, Some 4)], snaps).
Proof. do 4 eexists. split; [vm_compute; reflexivity|]. split; [reflexivity|]. vm_compute. reflexivity. Qed.
