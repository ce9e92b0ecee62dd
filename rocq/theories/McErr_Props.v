(** * C76: the reported error is an honest one *)
From Coq Require Import List ZArith QArith Qcanon Arith.
From Verif Require Import MpiStats_Model MpiStats_Spec McStats_Model McStats_Spec McErr_Spec McErr_Proofs.
Import ListNotations.
Open Scope Qc_scope.

(** Random data in chains, at least [bs] of them, that are not constant.  The samples within a
    chain may depend on each other in any way; the means of different chains fluctuate
    independently around [mu].  Then the mean of the square of the reported error is
    (1 - 1 / number of chains) times the mean squared distance of the reported mean from
    [mu]. *)
Theorem C76_honest_error :
  forall n L bs k E mu, Forall (fun o => same_shape n L (snd o) /\ length (snd o) = k) E ->
    chains_uncorrelated mu (k * n) E -> (0 < k * n)%nat -> (0 < bs <= k * n)%nat ->
    Forall (fun o => variance (concat (snd o)) <> 0) E ->
    exists error2,
      (forall o mine, In o E -> In mine (snd o) -> s_error2 (statistics bs (snd o) mine) = Fin (error2 (snd o))) /\
      emean E error2 = (1 - 1 / nQc (k * n)) * emean E (fun r => cabs2 (csub (gmean (concat (concat r))) mu)) /\
      forall o mine, In o E -> In mine (snd o) -> s_mean (statistics bs (snd o) mine) = gmean (concat (concat (snd o))).
Proof. exact error_mean. Qed.
Print Assumptions C76_honest_error.

(** Two chains of two samples on one rank. *)
Example C76_honest_example :
  Forall (fun o => same_shape 2 2 (snd o) /\ length (snd o) = 1%nat) ex_E /\ chains_uncorrelated (0, 0) (1 * 2) ex_E /\
  Forall (fun o => variance (concat (snd o)) <> 0) ex_E /\ emean ex_E (fun _ => 1) = 1 /\
  emean ex_E (fun r => cabs2 (csub (gmean (concat (concat r))) (0, 0))) = Q2Qc (1 # 2).
Proof. exact ex_E_main. Qed.
