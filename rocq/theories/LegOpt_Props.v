(** * C100: the numpy optimizers of the legacy drivers *)
From Coq Require Import List Arith ZArith Bool Reals Lia Lra.
From Verif Require Import Base LegOpt_Model LegOpt_Spec LegOpt_Proofs LegOpt_Hist LegOpt_Final LegOpt_Reset LegOpt_Bugs.
Import ListNotations.
Open Scope R_scope.
Open Scope nat_scope.

(** Gradient descent: the parameters move by the learning rate of that iteration, eta gamma^n,
    against gradient + l2 * parameters. *)
Theorem C100_sgd : forall lr l2 d o p gs, new_sgd lr l2 d = Ok o -> suited p gs ->
  exists path, follows o p gs path /\
  forall t k, k < size p -> entry (path (S t)) k =
    moved (entry (path t) k) (lr * d ^ S t) (nadd (grad_at gs t k) (nscale l2 (entry (path t) k))).
Proof. intros lr l2 d o p gs HN HS. exact (sgd_main lr l2 d o p gs HN HS). Qed.
Print Assumptions C100_sgd.
(** Momentum: against the exponentially weighted average of all gradients so far. *)
Theorem C100_momentum : forall lr b l2 o p gs, new_momentum lr b l2 = Ok o -> suited p gs ->
  exists path, follows o p gs path /\
  forall t k, k < size p -> entry (path (S t)) k =
    moved (entry (path t) k) lr (nadd (emaN b t (fun i => grad_at gs i k)) (nscale l2 (entry (path t) k))).
Proof. intros lr b l2 o p gs HN HS. exact (momentum_main lr b l2 o p gs HN HS). Qed.
Print Assumptions C100_momentum.
(** AdaGrad: the rate is eta / sqrt(sum of all squared gradients + eps), and never grows. *)
Theorem C100_adagrad : forall lr e o p gs, new_adagrad lr e = Ok o -> suited p gs ->
  exists path rate, follows o p gs path /\
  forall t k, k < size p ->
    rate t k = (lr / sqrt (sumR (S t) (fun i => mag2 (grad_at gs i k)) + e))%R /\
    (rate (S t) k <= rate t k)%R /\
    entry (path (S t)) k = moved (entry (path t) k) (rate t k) (grad_at gs t k).
Proof. intros lr e o p gs HN HS. exact (adagrad_main lr e o p gs HN HS). Qed.
Print Assumptions C100_adagrad.
(** RMSProp: an exponentially weighted average instead of the sum. *)
Theorem C100_rmsprop : forall lr b e o p gs, new_rmsprop lr b e = Ok o -> suited p gs ->
  exists path, follows o p gs path /\
  forall t k, k < size p -> entry (path (S t)) k =
    moved (entry (path t) k) (lr / sqrt (ema b t (fun i => mag2 (grad_at gs i k)) + e)) (grad_at gs t k).
Proof. intros lr b e o p gs HN HS. exact (rmsprop_main lr b e o p gs HN HS). Qed.
Print Assumptions C100_rmsprop.
(** AdaDelta: the rate is the ratio of the root mean square of the previous steps (which are
    read off the path) and that of the gradients. *)
Theorem C100_adadelta : forall rho e l2 o p gs, new_adadelta rho e l2 = Ok o -> suited p gs ->
  exists path, follows o p gs path /\
  forall t k, k < size p ->
    let steps := match t with O => 0%R | S t' => ema rho t' (fun i => mag2 (nsub (entry (path i) k) (entry (path (S i)) k))) end in
    entry (path (S t)) k =
    moved (entry (path t) k) (sqrt (steps + e) / sqrt (ema rho t (fun i => mag2 (grad_at gs i k)) + e)) (grad_at gs t k).
Proof. intros rho e l2 o p gs HN HS. exact (adadelta_main rho e l2 o p gs HN HS). Qed.
Print Assumptions C100_adadelta.
(** AmsGrad: averaged gradients, divided by a second moment that never decreases. *)
Theorem C100_amsgrad : forall lr b1 b2 e o p gs, new_amsgrad lr b1 b2 e = Ok o -> suited p gs ->
  exists path v, follows o p gs path /\
  forall t k, k < size p ->
    v t k = ams b2 t (fun i => mag2 (grad_at gs i k)) /\ (0 <= v t k <= v (S t) k)%R /\
    entry (path (S t)) k =
    moved (entry (path t) k) (lr / sqrt (v t k + e)) (emaN b1 t (fun i => grad_at gs i k)).
Proof. intros lr b1 b2 e o p gs HN HS. exact (amsgrad_main lr b1 b2 e o p gs HN HS). Qed.
Print Assumptions C100_amsgrad.
(** AdaMax: averaged gradients with the bias correction 1 - beta1^n, divided by the largest of
    the cutoff and beta2^age |gradient| over the whole history. *)
Theorem C100_adamax_partial : forall al b1 b2 e o p gs, new_adamax al b1 b2 e = Ok o -> (b1 < 1)%R -> suited p gs ->
  exists path, follows o p gs path /\
  forall t k, k < size p -> exists u,
    largest e t (fun i => b2 ^ (t - i) * mag (grad_at gs i k))%R u /\
    entry (path (S t)) k =
    moved (entry (path t) k) (al / (1 - b1 ^ S t) / u) (emaN b1 t (fun i => grad_at gs i k)).
Proof. intros al b1 b2 e o p gs HN HB HS. exact (adamax_main al b1 b2 e o p gs HN HB HS). Qed.
Print Assumptions C100_adamax_partial.
(** beta1 = 1 is accepted by the constructor, and then no update succeeds. *)
Theorem C100_adamax_refuted : forall al b2 e o p g, new_adamax al 1 b2 e = Ok o -> suited p [g] ->
  exists o', update o g p = (o', p, Err ZeroDivisionError).
Proof. exact adamax_one_wrong. Qed.
Print Assumptions C100_adamax_refuted.
Example C100_rules_inhabited : exists p gs o1 o2 o3 o4 o5 o6 o7, suited p gs /\ size p = 2 /\ length gs = 2 /\
  new_sgd 1 0 1 = Ok o1 /\ new_momentum 1 (/ 2) 0 = Ok o2 /\ new_adagrad 1 1 = Ok o3 /\ new_rmsprop 1 (/ 2) 1 = Ok o4 /\
  new_adadelta (/ 2) 1 0 = Ok o5 /\ new_amsgrad 1 (/ 2) (/ 2) 1 = Ok o6 /\ new_adamax 1 (/ 2) (/ 2) 1 = Ok o7.
Proof.
  exists (Arr DCpx [(1, 1)%R; (0, 2)%R]), [Arr DReal [(1, 0)%R; (2, 0)%R]; Arr DCpx [(1, 3)%R; (2, 0)%R]].
  do 7 eexists. split; [split; [discriminate|]; repeat constructor|]. split; [reflexivity|]. split; [reflexivity|].
  rewrite new_sgd_iff, new_momentum_iff, new_adagrad_iff, new_rmsprop_iff, new_adadelta_iff, new_amsgrad_iff, new_adamax_iff.
  repeat split; lra.
Qed.

(** The constructors accept exactly these settings (anything else raises ValueError). *)
Theorem C100_settings : forall r o, fresh_of r = Ok o <->
  match r with
  | RSgd lr l2 d => (0 < lr /\ 0 <= l2 /\ 1 <= d)%R /\ o = Sgd lr l2 d lr
  | RMomentum lr b l2 => (0 < lr /\ 0 <= b <= 1 /\ 0 <= l2)%R /\ o = Momentum l2 b lr None
  | RAdaGrad lr e => (0 <= lr /\ 0 < e)%R /\ o = AdaGrad lr e None
  | RRmsProp lr b e => (0 <= lr /\ 0 <= b <= 1 /\ 0 < e)%R /\ o = RmsProp lr b e None
  | RAdaDelta rho e l2 => (0 <= rho <= 1 /\ 0 < e /\ 0 <= l2)%R /\ o = AdaDelta rho e l2 None
  | RAmsGrad lr b1 b2 e => (0 <= lr /\ 0 <= b1 <= 1 /\ 0 <= b2 <= 1 /\ 0 < e)%R /\ o = AmsGrad lr b1 b2 e None
  | RAdaMax al b1 b2 e => (0 <= al /\ 0 <= b1 <= 1 /\ 0 <= b2 <= 1 /\ 0 < e)%R /\ o = AdaMax al b1 b2 e None 0
  end.
Proof. exact settings_main. Qed.
Print Assumptions C100_settings.
(** The documented decay factors of gradient descent, smaller than 1, are refused. *)
Theorem C100_decay_refuted : forall lr l2 d, (d < 1)%R -> new_sgd lr l2 d = Err ValueError.
Proof. exact decay_wrong. Qed.
Print Assumptions C100_decay_refuted.

(** An update changes the array it is given into the one it returns, keeping length and type;
    an update that raises an exception leaves the array as it was - for all arrays. *)
Theorem C100_in_place : forall o g p o' p' r, update o g p = (o', p', r) ->
  match r with Ok q => p' = q /\ size q = size p /\ a_dt q = a_dt p | Err _ => p' = p end.
Proof. exact update_keeps. Qed.
Print Assumptions C100_in_place.
(** The optimizer itself is not left as it was: after a refused update the learning rate has
    changed ... *)
Theorem C100_failed_update_refuted : exists o o1 p g,
  new_sgd 1 0 2 = Ok o /\ a_dt p = DReal /\ update o (Arr DCpx [(0, 1)%R]) p = (o1, p, Err TypeError) /\
  suited p [g] /\
  snd (update o1 g p) = Ok (Arr DReal [(-4, 0)%R]) /\ snd (update o g p) = Ok (Arr DReal [(-2, 0)%R]).
Proof. exact failed_sgd_wrong. Qed.
Print Assumptions C100_failed_update_refuted.
(** ... and after one refused complex gradient Momentum refuses every real one, even when reset. *)
Theorem C100_poisoned_refuted : exists o o1 o2 p g,
  new_momentum 1 0 0 = Ok o /\ a_dt p = DReal /\
  update o (Arr DCpx [(0, 1)%R]) p = (o1, p, Err TypeError) /\
  reset o1 = (o2, Ok tt) /\
  suited p [g] /\ snd (update o2 g p) = Err TypeError /\ snd (run o p [g]) = Ok tt.
Proof. exact poison_wrong. Qed.
Print Assumptions C100_poisoned_refuted.

(** After any history of updates and resets on arrays of one length and type, a reset makes the
    optimizer behave as a new one on such arrays. *)
Theorem C100_reset_partial : forall r o n d o', fresh_of r = Ok o ->
  match r with RAdaGrad _ _ | RAdaDelta _ _ _ => False | RAdaMax _ b1 _ _ => (b1 < 1)%R | _ => True end ->
  d <> DInt -> used o n d o' ->
  exists o2, reset o' = (o2, Ok tt) /\
  forall p gs, size p = n -> a_dt p = d -> suited p gs -> observed (run o2 p gs) = observed (run o p gs).
Proof. exact reset_main. Qed.
Print Assumptions C100_reset_partial.
Example C100_reset_inhabited : exists o o', fresh_of (RMomentum 1 0 0) = Ok o /\ used o 1 DReal o' /\ o' <> o.
Proof.
  exists (Momentum 0 0 1 None). eexists. split; [apply new_momentum_iff; split; [lra|reflexivity]|]. split.
  - eapply used_update with (g := Arr DReal [(1, 0)%R]) (p := Arr DReal [(0, 0)%R]); [apply used_new|reflexivity|reflexivity| |reflexivity].
    split; [reflexivity|discriminate].
  - discriminate.
Qed.
(** AdaGrad and AdaDelta cannot be reset. *)
Theorem C100_reset_refuted : forall o, (exists a b c, o = AdaGrad a b c) \/ (exists a b c d, o = AdaDelta a b c d) ->
  reset o = (o, Err AttributeError).
Proof. intros o [(a & b & c & ->)|(a & b & c & d & ->)]; reflexivity. Qed.
Print Assumptions C100_reset_refuted.
(** A reset optimizer cannot be used for another number of parameters. *)
Theorem C100_reset_size_refuted : exists o o1 o2 p g p' g',
  new_momentum 1 0 0 = Ok o /\ run o p [g] = (o1, p, Ok tt) /\ reset o1 = (o2, Ok tt) /\
  suited p [g] /\ suited p' [g'] /\
  snd (run o2 p' [g']) = Err ValueError /\ snd (run o p' [g']) = Ok tt.
Proof. exact reset_size_wrong. Qed.
Print Assumptions C100_reset_size_refuted.

(** AdaDelta's l2reg does nothing. *)
Theorem C100_adadelta_l2_refuted : forall rho e l l' st g p,
  let view (x : outcome) := (snd (fst x), snd x) in
  view (update (AdaDelta rho e l st) g p) = view (update (AdaDelta rho e l' st) g p).
Proof. exact adadelta_l2_wrong. Qed.
Print Assumptions C100_adadelta_l2_refuted.
(** The rules of the documentation that divide by sqrt(s) + eps, or replace the parameters by
    the momentum, are not those of the code: first steps with beta = 0. *)
Theorem C100_rmsprop_doc_refuted : exists o, new_rmsprop 1 0 3 = Ok o /\
  snd (update o (Arr DReal [(1, 0)%R]) (Arr DReal [(0, 0)%R])) = Ok (Arr DReal [(- / 2, 0)%R]) /\
  (0 - 1 / (sqrt (ema 0 0 (fun _ => 1)) + 3) * 1 = - / 4)%R.
Proof. exact rmsprop_doc_wrong. Qed.
Print Assumptions C100_rmsprop_doc_refuted.
Theorem C100_amsgrad_doc_refuted : exists o, new_amsgrad 1 0 0 3 = Ok o /\
  snd (update o (Arr DReal [(1, 0)%R]) (Arr DReal [(0, 0)%R])) = Ok (Arr DReal [(- / 2, 0)%R]) /\
  (0 - 1 / (sqrt (ams 0 0 (fun _ => 1)) + 3) * 1 = - / 4)%R.
Proof. exact amsgrad_doc_wrong. Qed.
Print Assumptions C100_amsgrad_doc_refuted.
Theorem C100_momentum_doc_refuted : exists o, new_momentum 1 0 0 = Ok o /\
  snd (update o (Arr DReal [(0, 0)%R]) (Arr DReal [(1, 0)%R])) = Ok (Arr DReal [(1, 0)%R]) /\
  (1 * ema 0 0 (fun _ => 0) = 0)%R.
Proof. exact momentum_doc_wrong. Qed.
Print Assumptions C100_momentum_doc_refuted.

(** The functions of netket.legacy.optimizer pass their settings on, for machines that are not
    jax machines ... *)
Theorem C100_make_partial : forall r o, (forall a b c d, r <> RAmsGrad a b c d) ->
  (make false r = Ok o <-> exists p, o = Numpy p /\ fresh_of r = Ok p).
Proof. exact make_main. Qed.
Print Assumptions C100_make_partial.
(** ... except AmsGrad, whose settings are ignored, good or bad. *)
Theorem C100_make_amsgrad_refuted : exists o o',
  make false (RAmsGrad 1 0 0 3) = Ok (Numpy o) /\ fresh_of (RAmsGrad 1 0 0 3) = Ok o' /\ o <> o' /\
  make false (RAmsGrad (-1) 2 2 0) = Ok (Numpy o) /\ fresh_of (RAmsGrad (-1) 2 2 0) = Err ValueError.
Proof. exact make_amsgrad_wrong. Qed.
Print Assumptions C100_make_amsgrad_refuted.
(** For jax machines regularization, decay and AdaGrad's cutoff are dropped and no setting is checked. *)
Theorem C100_make_jax_refuted : forall lr l2 d b e,
  make true (RSgd lr l2 d) = make true (RSgd lr 0 1) /\
  make true (RMomentum lr b l2) = make true (RMomentum lr b 0) /\
  make true (RAdaGrad lr e) = make true (RAdaGrad lr 1) /\
  make true (RSgd (-1) l2 d) = Ok (Jax (JSgd (-1))).
Proof. intros. repeat split; reflexivity. Qed.
Print Assumptions C100_make_jax_refuted.

(** A wrapped jax optimizer makes the steps of the jax optimizer, numbered from 0 ... *)
Theorem C100_wrap : forall S P G (init_fun : P -> S) update_fun params_fun (p0 p : P) (l : list (G * (P -> P))), l <> [] ->
  wrap_run S P G update_fun params_fun (wrap_reset S P init_fun p0) p l =
  params_fun (jax_steps S G update_fun 0 (map fst l) (init_fun p0)).
Proof. intros S P G i u f p0 p l H. exact (wrap_main S P G u f l (wrap_reset S P i p0) p H). Qed.
Print Assumptions C100_wrap.
(** ... and forgets what the user did to the parameters in between: gradient descent with zero
    gradients does not keep parameters that were set to 5. *)
Theorem C100_wrap_refuted : exists (update_fun : nat -> Z -> Z -> Z) (l : list (Z * (Z -> Z))),
  (forall i g x, update_fun i g x = (x - g)%Z) /\ l = [(0%Z, fun _ => 5%Z)] /\
  wrap_run Z Z Z update_fun (fun x => x) (wrap_reset Z Z (fun x => x) 1%Z) 1%Z l = 1%Z.
Proof. exists (fun _ g x => (x - g)%Z), [(0%Z, fun _ => 5%Z)]. repeat split. Qed.
Print Assumptions C100_wrap_refuted.
