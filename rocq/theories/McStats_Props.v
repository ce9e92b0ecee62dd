(** * Property C76: statistics of Monte Carlo data *)
From Coq Require Import List ZArith QArith Qcanon Lia Permutation.
From Verif Require Import MpiStats_Model MpiStats_Spec McStats_Model McStats_Spec McStats_Proofs.
Import ListNotations.
Open Scope Qc_scope.

(** On every rank the statistics are those of all chains together; the thresholds on the
    autocorrelation time never decide anything. *)
Theorem C76_distributed :
  forall n L bs ranks, same_shape n L ranks -> (0 < bs)%nat -> forall mine, In mine ranks ->
    statistics bs ranks mine = stats_of bs L (concat ranks).
Proof. exact distributed. Qed.
Print Assumptions C76_distributed.

(** Neither the order of the chains nor their distribution over the ranks matters. *)
Theorem C76_redistribution :
  forall n n' L bs ranks ranks' mine mine',
    same_shape n L ranks -> same_shape n' L ranks' -> (0 < bs)%nat -> In mine ranks -> In mine' ranks' ->
    Permutation (concat ranks) (concat ranks') -> statistics bs ranks mine = statistics bs ranks' mine'.
Proof. exact redistribute. Qed.
Print Assumptions C76_redistribution.

(** An error is reported exactly when the data vary and there are at least [bs] samples. *)
Theorem C76_defined :
  forall n L bs ranks mine, same_shape n L ranks -> (0 < bs)%nat -> In mine ranks ->
    (exists e, s_error2 (statistics bs ranks mine) = Fin e) <->
    variance (concat ranks) <> 0 /\ (bs <= length (concat (concat ranks)))%nat.
Proof. exact defined_main. Qed.
Print Assumptions C76_defined.

(** error^2 = variance (1 + 2 tau) / number of samples, at most when tau was clipped to 0 *)
Theorem C76_error_tau :
  forall n L bs ranks mine e t, same_shape n L ranks -> (0 < bs)%nat -> In mine ranks ->
    s_error2 (statistics bs ranks mine) = Fin e -> s_tau (statistics bs ranks mine) = Fin t ->
    0 <= t /\ e <= s_var (statistics bs ranks mine) * (1 + nQc 2 * t) / nQc (length (concat (concat ranks))) /\
    (0 < t -> e = s_var (statistics bs ranks mine) * (1 + nQc 2 * t) / nQc (length (concat (concat ranks)))).
Proof. exact error_tau_main. Qed.
Print Assumptions C76_error_tau.

Theorem C76_affine :
  forall n L bs ranks mine a c, same_shape n L ranks -> (0 < bs)%nat -> In mine ranks -> cabs2 a <> 0 ->
    let s := statistics bs ranks mine in
    statistics bs (map (map (map (affine a c))) ranks) (map (map (affine a c)) mine) =
    mkStats (affine a c (s_mean s)) (scale2 (cabs2 a) (s_error2 s)) (cabs2 a * s_var s) (s_tau s) (s_rhat2 s).
Proof. exact affine_main. Qed.
Print Assumptions C76_affine.

(** The reported split is below the square root of 2, whatever the chains. *)
Theorem C76_rhat_bounded :
  forall n L bs ranks mine r, same_shape n L ranks -> (0 < bs)%nat -> In mine ranks ->
    s_rhat2 (statistics bs ranks mine) = Fin r -> r < nQc 2.
Proof. exact rhat_main. Qed.
Print Assumptions C76_rhat_bounded.

Definition re (z : Z) : cplx := (Q2Qc (inject_Z z), 0).
Definition stuck_chains : list (list (list cplx)) := [[[re 0; re 0; re 0]; [re 1; re 1; re 1]]].
Definition mixed_chains : list (list (list cplx)) :=
  [[[re 0; re 2; re 1]; [re 1; re 4; re 4]]; [[re 5; re 0; re 0]; [re (-1); re 7; re 2]]].

(** Gelman and Rubin's number is infinite when every chain is stuck at its own value; the
    reported one is not even 2. *)
Theorem C76_gelman_rubin_refuted :
  exists n L bs ranks mine r, same_shape n L ranks /\ (0 < bs)%nat /\ In mine ranks /\
    within (concat ranks) = 0 /\ variance (concat ranks) <> 0 /\
    s_rhat2 (statistics bs ranks mine) = Fin r /\ r < nQc 2.
Proof.
  exists 2%nat, 3%nat, 2%nat, stuck_chains, (hd [] stuck_chains).
  assert (Sh : same_shape 2 3 stuck_chains).
  { repeat split; try lia; try discriminate. repeat constructor. }
  eexists. split; [exact Sh|]. split; [lia|]. split; [left; reflexivity|].
  split; [apply Qc_is_canon; vm_compute; reflexivity|].
  split; [intros C; apply (f_equal this) in C; vm_compute in C; discriminate|].
  split; [vm_compute; reflexivity|]. reflexivity.
Qed.
Print Assumptions C76_gelman_rubin_refuted.

(** Data without variance - the local energies of an exact eigenstate - has error 0, but the
    reported error, autocorrelation time and split are not numbers, for every such data. *)
Theorem C76_constant :
  forall n L bs ranks mine, same_shape n L ranks -> (0 < bs)%nat -> In mine ranks ->
    variance (concat ranks) = 0 ->
    s_error2 (statistics bs ranks mine) = NaN /\ s_tau (statistics bs ranks mine) = NaN /\
    s_rhat2 (statistics bs ranks mine) = NaN.
Proof. exact constant_main. Qed.
Print Assumptions C76_constant.

(** ** Examples *)
Definition fthis (x : fl) : option Q := match x with Fin q => Some (this q) | _ => None end.
Definition show (s : stats) : (Q * Q) * option Q * Q * option Q * option Q :=
  ((this (fst (s_mean s)), this (snd (s_mean s))), fthis (s_error2 s), this (s_var s), fthis (s_tau s), fthis (s_rhat2 s)).

Example C76_ex_shape : same_shape 2 3 mixed_chains.
Proof. repeat split; try lia; try discriminate. repeat constructor. Qed.
Example C76_ex_batches :
  show (statistics 4 mixed_chains (hd [] mixed_chains)) =
  ((25 # 12, 0)%Q, Some (91 # 576)%Q, (779 # 144)%Q, Some 0%Q, Some (1831 # 2337)%Q).
Proof. vm_compute. reflexivity. Qed.
(** too few chains for batches of [bs = 5]: single samples are the groups *)
Example C76_ex_blocks :
  show (statistics 5 mixed_chains (hd [] mixed_chains)) =
  ((25 # 12, 0)%Q, Some (779 # 1728)%Q, (779 # 144)%Q, Some 0%Q, Some (1831 # 2337)%Q).
Proof. vm_compute. reflexivity. Qed.
(** too few samples *)
Example C76_ex_none :
  show (statistics 13 mixed_chains (hd [] mixed_chains)) =
  ((25 # 12, 0)%Q, None, (779 # 144)%Q, None, Some (1831 # 2337)%Q).
Proof. vm_compute. reflexivity. Qed.
(** correlated chains: a positive autocorrelation time *)
Example C76_ex_tau :
  show (statistics 2 stuck_chains (hd [] stuck_chains)) =
  ((1 # 2, 0)%Q, Some (1 # 8)%Q, (1 # 4)%Q, Some 1%Q, Some (5 # 3)%Q).
Proof. vm_compute. reflexivity. Qed.
