(** * Proofs about the numpy optimizers: resets, failures, wrong results *)
From Coq Require Import List Arith ZArith Bool Reals Lia Lra.
From Verif Require Import Base LegOpt_Model LegOpt_Spec LegOpt_Proofs LegOpt_Hist LegOpt_Final.
Import ListNotations.
Open Scope R_scope.
Open Scope nat_scope.

Lemma fill0_vals a : a_vals (fill0 a) = repeat (0, 0)%R (size a).
Proof. reflexivity. Qed.
Lemma fill0_size a : size (fill0 a) = size a.
Proof. unfold size at 1. cbn. apply repeat_length. Qed.

Lemma used_rep o n d o' : o = blank o -> biased o -> 1 <= rank d -> used o n d o' ->
  exists t A B, rep o d n t A B o'.
Proof.
  intros HB HO HD HU. induction HU as [|o1 g p o2 p2 q HU IH HS HT HF HE|o1 o2 HU IH HE].
  - exists 0, (zeros n DReal), (zeros n DReal). repeat split; try (unfold size; cbn; apply repeat_length); try (cbn; lia).
    right. repeat split; auto.
  - destruct IH as (t & A & B & HR).
    destruct (step_main o d n t A B o1 g p HR HT HS HD HF HO) as (A' & B' & o3 & P' & EU & HR' & _).
    rewrite EU in HE. inversion HE; subst. exists (S t), A', B'. exact HR'.
  - destruct IH as (t & A & B & SA & SB & RA & QA & DB & HR).
    exists 0, (fill0 A), (fill0 B).
    split; [rewrite fill0_size; exact SA|]. split; [rewrite fill0_size; exact SB|]. split; [exact RA|]. split; [exact QA|]. split; [exact DB|].
    rewrite !fill0_vals, SA, SB.
    destruct o; cbn [at_time blank] in HR; destruct HR as [HR|(_ & HR & _)]; subst o1; cbn [reset option_map fst snd] in HE;
      inversion HE; subst o2; cbn [at_time blank]; try (left; reflexivity); right; repeat split; auto.
Qed.
Lemma reset_rep o n d o' o2 : o = blank o -> biased o -> 1 <= rank d -> used o n d o' -> reset o' = (o2, Ok tt) ->
  exists A B, rep o d n 0 A B o2 /\ a_vals A = repeat (0, 0)%R n /\ a_vals B = repeat (0, 0)%R n.
Proof.
  intros HB HO HD HU HE. destruct (used_rep o n d o' HB HO HD HU) as (t & A & B & SA & SB & RA & QA & DB & HR).
    exists (fill0 A), (fill0 B). rewrite !fill0_vals, SA, SB. split; [|split; reflexivity].
    split; [rewrite fill0_size; exact SA|]. split; [rewrite fill0_size; exact SB|]. split; [exact RA|]. split; [exact QA|]. split; [exact DB|].
    rewrite !fill0_vals, SA, SB.
    destruct o; cbn [at_time blank] in HR; destruct HR as [HR|(_ & HR & _)]; subst o'; cbn [reset option_map fst snd] in HE;
      inversion HE; subst o2; cbn [at_time blank]; try (left; reflexivity); right; repeat split; auto.
Qed.

Lemma reset_same o n d o' o2 p gs : o = blank o -> biased o -> used o n d o' -> reset o' = (o2, Ok tt) ->
  size p = n -> a_dt p = d -> suited p gs -> observed (run o2 p gs) = observed (run o p gs).
Proof.
  intros HB HO HU HE HS HT HG. subst n d.
  destruct (reset_rep o _ _ o' o2 HB HO (rank_pos _ (proj1 HG)) HU HE) as (A & B & HR & VA & VB).
  destruct (run_main o o2 p gs A B HG HO HR VA VB (length gs) (le_n _)) as (_ & _ & o3 & E & _).
  destruct (run_main o o p gs _ _ HG HO (rep_blank o p (proj1 HG) HB) eq_refl eq_refl (length gs) (le_n _)) as (_ & _ & o4 & E' & _).
  rewrite firstn_all in E, E'. rewrite E, E'. reflexivity.
Qed.

Lemma fresh_blank r o : fresh_of r = Ok o -> o = blank o.
Proof.
  destruct r; cbn [fresh_of]; intros H;
  first [apply new_sgd_iff in H|apply new_momentum_iff in H|apply new_adagrad_iff in H|apply new_rmsprop_iff in H
        |apply new_adadelta_iff in H|apply new_amsgrad_iff in H|apply new_adamax_iff in H]; destruct H as (_ & ->); reflexivity.
Qed.
Lemma reset_ok o : (forall a b c, o <> AdaGrad a b c) -> (forall a b c d, o <> AdaDelta a b c d) -> exists o2, reset o = (o2, Ok tt).
Proof.
  intros H1 H2. destruct o; cbn [reset]; try (eexists; reflexivity).
  - exfalso. eapply H1. reflexivity.
  - exfalso. eapply H2. reflexivity.
Qed.
Definition kind (o : opt) : nat :=
  match o with Sgd _ _ _ _ => 0 | Momentum _ _ _ _ => 1 | AdaGrad _ _ _ => 2 | RmsProp _ _ _ _ => 3 | AdaDelta _ _ _ _ => 4 | AmsGrad _ _ _ _ _ => 5 | AdaMax _ _ _ _ _ _ => 6 end.
Lemma rep_kind o d n t A B o' : rep o d n t A B o' -> kind o' = kind o.
Proof. intros (_ & _ & _ & _ & _ & [->|(_ & -> & _)]); destruct o; reflexivity. Qed.

Lemma reset_main r o n d o' : fresh_of r = Ok o ->
  match r with RAdaGrad _ _ | RAdaDelta _ _ _ => False | RAdaMax _ b1 _ _ => (b1 < 1)%R | _ => True end ->
  d <> DInt -> used o n d o' ->
  exists o2, reset o' = (o2, Ok tt) /\
  forall p gs, size p = n -> a_dt p = d -> suited p gs -> observed (run o2 p gs) = observed (run o p gs).
Proof.
  intros HN HK HD HU. pose proof (fresh_blank r o HN) as HB.
  assert (HO : biased o).
  { destruct r; cbn [fresh_of] in HN; try (destruct HK; fail);
    first [apply new_sgd_iff in HN|apply new_momentum_iff in HN|apply new_adagrad_iff in HN|apply new_rmsprop_iff in HN
        |apply new_adadelta_iff in HN|apply new_amsgrad_iff in HN|apply new_adamax_iff in HN]; destruct HN as (HN & ->); try exact I.
    cbn. lra. }
  destruct (used_rep o n d o' HB HO (rank_pos _ HD) HU) as (t & A & B & HR). apply rep_kind in HR.
  assert (HK' : kind o <> 2 /\ kind o <> 4).
  { destruct r; cbn [fresh_of] in HN; try (destruct HK; fail);
    first [apply new_sgd_iff in HN|apply new_momentum_iff in HN|apply new_adagrad_iff in HN|apply new_rmsprop_iff in HN
        |apply new_adadelta_iff in HN|apply new_amsgrad_iff in HN|apply new_adamax_iff in HN]; destruct HN as (_ & ->); cbn; lia. }
  destruct (reset_ok o') as (o2 & E2).
  { intros a b c ->. cbn in HR. lia. }
  { intros a b c e ->. cbn in HR. lia. }
  exists o2. split; [exact E2|]. intros p gs HS HT HG. exact (reset_same o n d o' o2 p gs HB HO HU E2 HS HT HG).
Qed.

(** ** What an update leaves behind *)
Lemma subtract_keeps o pars d o' p' r : subtract o pars d = (o', p', r) ->
  match r with Ok q => p' = q /\ size q = size pars /\ a_dt q = a_dt pars | Err _ => p' = pars end.
Proof.
  unfold subtract, andthen, fail, iop. intros H.
  destruct (rank (join (a_dt pars) (a_dt d)) <=? rank (a_dt pars)) eqn:E1; cbn [negb] in H.
  2:{ inversion H; subst. reflexivity. }
  destruct (bop nsub pars d) as [b|e] eqn:E2; cbn [bind] in H; [|inversion H; subst; reflexivity].
  destruct (size b =? size pars) eqn:E3; inversion H; subst; [|reflexivity].
  split; [reflexivity|]. split; [apply Nat.eqb_eq, E3|].
  apply Nat.leb_le in E1.
  assert (a_dt p' = join (a_dt pars) (a_dt d)) as ->.
  { revert E2. unfold bop. destruct (size pars =? size d); [intros E2; inversion E2; reflexivity|].
    destruct (a_vals pars) as [|x [|x' l]], (a_vals d) as [|y [|y' l']]; intros E2; inversion E2; reflexivity. }
  apply rank_inj. destruct (a_dt pars), (a_dt d); cbn in *; lia.
Qed.
Lemma iop_keeps f pars d q : iop f pars d = Ok q -> size q = size pars /\ a_dt q = a_dt pars.
Proof.
  unfold iop. destruct (rank (join (a_dt pars) (a_dt d)) <=? rank (a_dt pars)) eqn:E1; cbn [negb]; [|discriminate].
  destruct (bop f pars d) as [b|e] eqn:E2; cbn [bind]; [|discriminate].
  destruct (size b =? size pars) eqn:E3; intros H; inversion H; subst.
  split; [apply Nat.eqb_eq, E3|]. apply Nat.leb_le in E1.
  assert (a_dt q = join (a_dt pars) (a_dt d)) as ->.
  { revert E2. unfold bop. destruct (size pars =? size d); [intros E2; inversion E2; reflexivity|].
    destruct (a_vals pars) as [|x [|x' l]], (a_vals d) as [|y [|y' l']]; intros E2; inversion E2; reflexivity. }
  apply rank_inj. destruct (a_dt pars), (a_dt d); cbn in *; lia.
Qed.
(** when an elementwise operation is possible *)
Lemma bop_size f a b r : bop f a b = Ok r ->
  size a = size b /\ size r = size a \/ size a = 1 /\ size r = size b \/ size b = 1 /\ size r = size a.
Proof.
  unfold bop. destruct (size a =? size b) eqn:E.
  - apply Nat.eqb_eq in E. intros H. inversion H. left. split; [exact E|]. apply size_map2. exact E.
  - destruct a as [da va], b as [db vb]. unfold size in *. cbn [a_vals a_dt] in *.
    destruct va as [|x [|x' va]], vb as [|y [|y' vb]]; intros H; inversion H; subst; cbn in *; rewrite ?map_length; auto.
Qed.
Lemma bop_ok f a b : size a = size b \/ size a = 1 \/ size b = 1 -> exists r, bop f a b = Ok r.
Proof.
  intros H. unfold bop. destruct (size a =? size b) eqn:E; [eexists; reflexivity|]. apply Nat.eqb_neq in E.
  destruct a as [da va], b as [db vb]. unfold size in *. cbn [a_vals a_dt] in *.
  destruct va as [|x [|x' va]], vb as [|y [|y' vb]]; cbn in *; try (eexists; reflexivity); lia.
Qed.

Lemma update_keeps o g p o' p' r : update o g p = (o', p', r) ->
  match r with Ok q => p' = q /\ size q = size p /\ a_dt q = a_dt p | Err _ => p' = p end.
Proof.
  assert (HF : forall o e, fail o p e = (o', p', r) -> match r with Ok q => p' = q /\ size q = size p /\ a_dt q = a_dt p | Err _ => p' = p end).
  { intros o1 e H. unfold fail in H. inversion H; subst. reflexivity. }
  assert (HA : forall A o (m : res A) k, (forall a, m = Ok a -> k a = (o', p', r) -> match r with Ok q => p' = q /\ size q = size p /\ a_dt q = a_dt p | Err _ => p' = p end) ->
     andthen o p m k = (o', p', r) -> match r with Ok q => p' = q /\ size q = size p /\ a_dt q = a_dt p | Err _ => p' = p end).
  { intros A o1 m k HK H. unfold andthen in H. destruct m as [a|e]; [exact (HK a eq_refl H)|exact (HF _ _ H)]. }
  destruct o; cbn [update].
  - apply HA. intros x _. apply subtract_keeps.
  - apply HA. intros m _. apply HA. intros x _. apply subtract_keeps.
  - apply HA. intros m _. apply HA. intros x _. apply subtract_keeps.
  - apply HA. intros m _. apply HA. intros x _. apply subtract_keeps.
  - destruct (or_zeros2 st (size p)) as [E D]. apply HA. intros E' _. apply HA. intros Dx EX. apply HA. intros Dx' EX'.
    apply HA. intros q Eq. intros H. unfold andthen in H.
    destruct (bop nadd (scale rho D) (scale (1 - rho) (np_abs2 Dx'))) as [D'|e] eqn:EB.
    + inversion H; subst. destruct (iop_keeps _ _ _ _ Eq). repeat split; auto.
    + exfalso. destruct (iop_keeps _ _ _ _ EX') as [S1 _].
      destruct (bop_ok nadd (scale rho D) (scale (1 - rho) (np_abs2 Dx'))) as (z & Ez).
      { unfold np_abs2. rewrite !size_scale, size_reals, S1. apply bop_size in EX. unfold sqrt_eps in EX. rewrite size_reals in EX. lia. }
      congruence.
  - destruct (or_zeros2 st (size p)) as [m v]. apply HA. intros m' _. apply HA. intros w _. apply HA. intros v' _. apply HA. intros x _. apply subtract_keeps.
  - destruct (or_zeros2 st (size p)) as [m v]. apply HA. intros m' _. apply HA. intros w _.
    destruct (Req_EM_T _ _); [apply HF|]. apply HA. intros x _. apply subtract_keeps.
Qed.
