(** * Proofs about the numpy optimizers: cases in which they do not do what is expected *)
From Coq Require Import List Arith ZArith Bool Reals Lia Lra.
From Verif Require Import Base LegOpt_Model LegOpt_Spec LegOpt_Proofs LegOpt_Hist LegOpt_Final LegOpt_Reset.
Import ListNotations.
Open Scope R_scope.
Open Scope nat_scope.

(** a history with a reset between arrays of different lengths *)
Lemma reset_size_wrong : exists o o1 o2 p g p' g',
  new_momentum 1 0 0 = Ok o /\ run o p [g] = (o1, p, Ok tt) /\ reset o1 = (o2, Ok tt) /\
  suited p [g] /\ suited p' [g'] /\
  snd (run o2 p' [g']) = Err ValueError /\ snd (run o p' [g']) = Ok tt.
Proof.
  exists (Momentum 0 0 1 None), (Momentum 0 0 1 (Some (Arr DReal [(0, 0)%R; (0, 0)%R]))), (Momentum 0 0 1 (Some (Arr DReal [(0, 0)%R; (0, 0)%R]))).
  exists (Arr DReal [(0, 0)%R; (0, 0)%R]), (Arr DReal [(0, 0)%R; (0, 0)%R]).
  exists (Arr DReal [(0, 0)%R; (0, 0)%R; (0, 0)%R]), (Arr DReal [(0, 0)%R; (0, 0)%R; (0, 0)%R]).
  assert (F : forall n, suited (zeros n DReal) [zeros n DReal]).
  { intros n. split; [discriminate|]. repeat constructor. discriminate. }
  split; [apply new_momentum_iff; split; [lra|reflexivity]|]. split.
  { cbn. unfold nadd, nsub, nscale. cbn. repeat f_equal; ring. }
  split; [reflexivity|]. split; [apply (F 2)|]. split; [apply (F 3)|]. split; reflexivity.
Qed.

(** one refused update with a complex gradient, then a reset *)
Lemma poison_wrong : exists o o1 o2 p g,
  new_momentum 1 0 0 = Ok o /\ a_dt p = DReal /\
  update o (Arr DCpx [(0, 1)%R]) p = (o1, p, Err TypeError) /\
  reset o1 = (o2, Ok tt) /\
  suited p [g] /\ snd (update o2 g p) = Err TypeError /\ snd (run o p [g]) = Ok tt.
Proof.
  exists (Momentum 0 0 1 None), (Momentum 0 0 1 (Some (Arr DCpx [(0, 1)%R]))), (Momentum 0 0 1 (Some (Arr DCpx [(0, 0)%R]))).
  exists (Arr DReal [(0, 0)%R]), (Arr DReal [(0, 0)%R]).
  split; [apply new_momentum_iff; split; [lra|reflexivity]|]. split; [reflexivity|]. split.
  { cbn. unfold nadd, nsub, nscale. cbn. unfold fail. repeat f_equal; ring. }
  split; [reflexivity|]. split; [split; [discriminate|]; repeat constructor; discriminate|]. split; reflexivity.
Qed.

(** a refused update still changes the learning rate *)
Lemma failed_sgd_wrong : exists o o1 p g,
  new_sgd 1 0 2 = Ok o /\ a_dt p = DReal /\ update o (Arr DCpx [(0, 1)%R]) p = (o1, p, Err TypeError) /\
  suited p [g] /\
  snd (update o1 g p) = Ok (Arr DReal [(-4, 0)%R]) /\ snd (update o g p) = Ok (Arr DReal [(-2, 0)%R]).
Proof.
  exists (Sgd 1 0 2 1), (Sgd 1 0 2 2), (Arr DReal [(0, 0)%R]), (Arr DReal [(1, 0)%R]).
  split; [apply new_sgd_iff; split; [lra|reflexivity]|]. split; [reflexivity|]. split.
  { cbn. unfold fail. repeat f_equal. ring. }
  split; [split; [discriminate|]; repeat constructor; discriminate|].
  split; cbn; unfold nadd, nsub, nscale; cbn; repeat f_equal; ring.
Qed.

Lemma rmsprop_doc_wrong : exists o, new_rmsprop 1 0 3 = Ok o /\
  snd (update o (Arr DReal [(1, 0)%R]) (Arr DReal [(0, 0)%R])) = Ok (Arr DReal [(- / 2, 0)%R]) /\
  (0 - 1 / (sqrt (ema 0 0 (fun _ => 1)) + 3) * 1 = - / 4)%R.
Proof.
  exists (RmsProp 1 0 3 None). split; [apply new_rmsprop_iff; split; [lra|reflexivity]|]. split.
  - cbn. unfold nadd, nsub, nscale, nover, mag2. cbn. do 3 f_equal. apply num_eq; [|unfold Rdiv; ring].
    replace (0 * 0 + (1 - 0) * (1 * 1 + 0 * 0) + 3)%R with (2 * 2)%R by ring. rewrite sqrt_square by lra. field.
  - rewrite ema_0. replace ((1 - 0) * 1)%R with 1%R by ring. rewrite sqrt_1. field.
Qed.
Lemma amsgrad_doc_wrong : exists o, new_amsgrad 1 0 0 3 = Ok o /\
  snd (update o (Arr DReal [(1, 0)%R]) (Arr DReal [(0, 0)%R])) = Ok (Arr DReal [(- / 2, 0)%R]) /\
  (0 - 1 / (sqrt (ams 0 0 (fun _ => 1)) + 3) * 1 = - / 4)%R.
Proof.
  exists (AmsGrad 1 0 0 3 None). split; [apply new_amsgrad_iff; split; [lra|reflexivity]|]. split.
  - cbn. unfold nadd, nsub, nscale, nover, nmax, mag2. cbn. do 3 f_equal. apply num_eq; [|unfold Rdiv; ring].
    replace (0 * 0 + (1 - 0) * (1 * 1 + 0 * 0))%R with 1%R by ring. rewrite Rmax_right by lra.
    replace (1 + 3)%R with (2 * 2)%R by ring. rewrite sqrt_square by lra. field.
  - cbn [ams]. rewrite Rmax_right by lra. replace ((1 - 0) * 1)%R with 1%R by ring. rewrite sqrt_1. field.
Qed.
Lemma momentum_doc_wrong : exists o, new_momentum 1 0 0 = Ok o /\
  snd (update o (Arr DReal [(0, 0)%R]) (Arr DReal [(1, 0)%R])) = Ok (Arr DReal [(1, 0)%R]) /\
  (1 * ema 0 0 (fun _ => 0) = 0)%R.
Proof.
  exists (Momentum 0 0 1 None). split; [apply new_momentum_iff; split; [lra|reflexivity]|]. split.
  - cbn. unfold nadd, nsub, nscale. cbn. repeat f_equal; ring.
  - rewrite ema_0. ring.
Qed.

(** beta1 = 1 *)
Lemma adamax_one_wrong : forall al b2 e o p g, new_adamax al 1 b2 e = Ok o -> suited p [g] ->
  exists o', update o g p = (o', p, Err ZeroDivisionError).
Proof.
  intros al b2 e o p g HN (HD & HF). apply new_adamax_iff in HN. destruct HN as (_ & ->).
  inversion HF as [|x l (FS & FD) _]; subst. unfold size in FS.
  cbn [update or_zeros2].
  rewrite bop_eq by (unfold size; cbn; rewrite !map_length, repeat_length; unfold size; congruence). cbn [andthen].
  rewrite bop_eq by (unfold size; cbn; rewrite !map_length, repeat_length; unfold size; congruence). cbn [andthen].
  destruct (Req_EM_T _ _) as [E|E].
  - eexists. reflexivity.
  - exfalso. apply E. rewrite pow1. ring.
Qed.

Lemma make_amsgrad_wrong : exists o o', 
  make false (RAmsGrad 1 0 0 3) = Ok (Numpy o) /\ fresh_of (RAmsGrad 1 0 0 3) = Ok o' /\ o <> o' /\
  make false (RAmsGrad (-1) 2 2 0) = Ok (Numpy o) /\ fresh_of (RAmsGrad (-1) 2 2 0) = Err ValueError.
Proof.
  set (o := AmsGrad (/ 1000) (9 / 10) (999 / 1000) (/ 10 ^ 7) None).
  assert (E : new_amsgrad (/ 1000) (9 / 10) (999 / 1000) (/ 10 ^ 7) = Ok o).
  { apply new_amsgrad_iff. split; [|reflexivity]. repeat split; lra. }
  exists o, (AmsGrad 1 0 0 3 None). cbn [make]. rewrite E. cbn [bind].
  split; [reflexivity|]. split; [apply new_amsgrad_iff; split; [lra|reflexivity]|]. split.
  { unfold o. intros H. inversion H. lra. }
  split; [reflexivity|]. cbn [fresh_of]. unfold new_amsgrad. guards; reflexivity || lra.
Qed.
Lemma make_main r o : (forall a b c d, r <> RAmsGrad a b c d) -> (make false r = Ok o <-> exists p, o = Numpy p /\ fresh_of r = Ok p).
Proof.
  intros HR. assert (E : make false r = match fresh_of r with Ok p => Ok (Numpy p) | Err e => Err e end).
  { destruct r; cbn [make fresh_of]; try reflexivity. exfalso. eapply HR. reflexivity. }
  rewrite E. destruct (fresh_of r) as [p|e].
  - split; [intros H; inversion H; eauto|]. intros (q & -> & H). inversion H. reflexivity.
  - split; [discriminate|]. intros (q & _ & H). discriminate.
Qed.

(** ** Wrap *)
Lemma wrap_main S P G update_fun params_fun : forall l w p, l <> [] ->
  wrap_run S P G update_fun params_fun w p l = params_fun (jax_steps S G update_fun (w_step w) (map fst l) (w_state w)).
Proof.
  induction l as [|[g f] l IH]; intros w p H; [congruence|]. cbn [wrap_run wrap_update map fst jax_steps].
  destruct l as [|h l]; [reflexivity|]. rewrite IH by discriminate. reflexivity.
Qed.

Lemma settings_main : forall r o, fresh_of r = Ok o <->
  match r with
  | RSgd lr l2 d => (0 < lr /\ 0 <= l2 /\ 1 <= d)%R /\ o = Sgd lr l2 d lr
  | RMomentum lr b l2 => (0 < lr /\ 0 <= b <= 1 /\ 0 <= l2)%R /\ o = Momentum l2 b lr None
  | RAdaGrad lr e => (0 <= lr /\ 0 < e)%R /\ o = AdaGrad lr e None
  | RRmsProp lr b e => (0 <= lr /\ 0 <= b <= 1 /\ 0 < e)%R /\ o = RmsProp lr b e None
  | RAdaDelta rho e l2 => (0 <= rho <= 1 /\ 0 < e /\ 0 <= l2)%R /\ o = AdaDelta rho e l2 None
  | RAmsGrad lr b1 b2 e => (0 <= lr /\ 0 <= b1 <= 1 /\ 0 <= b2 <= 1 /\ 0 < e)%R /\ o = AmsGrad lr b1 b2 e None
  | RAdaMax al b1 b2 e => (0 <= al /\ 0 <= b1 <= 1 /\ 0 <= b2 <= 1 /\ 0 < e)%R /\ o = AdaMax al b1 b2 e None 0
  end.
Proof.
  intros r o. destruct r; cbn [fresh_of].
  - apply new_sgd_iff. - apply new_momentum_iff. - apply new_adagrad_iff. - apply new_rmsprop_iff.
  - apply new_adadelta_iff. - apply new_amsgrad_iff. - apply new_adamax_iff.
Qed.
Lemma decay_wrong lr l2 d : (d < 1)%R -> new_sgd lr l2 d = Err ValueError.
Proof. intros H. unfold new_sgd. guards; try reflexivity. lra. Qed.
Lemma adadelta_l2_wrong rho e l l' st g p :
  let view (x : outcome) := (snd (fst x), snd x) in
  view (update (AdaDelta rho e l st) g p) = view (update (AdaDelta rho e l' st) g p).
Proof.
  intros view. cbn [update]. destruct (or_zeros2 st (size p)) as [E D].
  unfold andthen, fail.
  destruct (bop nadd (scale rho E) (scale (1 - rho) (np_abs2 g))); [|reflexivity].
  destruct (bop ntimes g (sqrt_eps e D)); [|reflexivity].
  destruct (iop nover _ _); [|reflexivity].
  destruct (iop nsub _ _); [|reflexivity].
  destruct (bop nadd _ _); reflexivity.
Qed.
