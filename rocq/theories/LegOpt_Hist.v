(** * Proofs about the numpy optimizers: histories *)
From Coq Require Import List Arith ZArith Bool Reals Lia Lra.
From Verif Require Import Base LegOpt_Model LegOpt_Spec LegOpt_Proofs.
Import ListNotations.
Open Scope R_scope.
Open Scope nat_scope.

Lemma run_snoc : forall gs o p g,
  run o p (gs ++ [g]) =
  match run o p gs with
  | (o', p', Ok _) => match update o' g p' with (o2, _, Ok q) => (o2, q, Ok tt) | (o2, p2, Err e) => (o2, p2, Err e) end
  | r => r
  end.
Proof.
  induction gs as [|h gs IH]; intros o p g; cbn [run app].
  - destruct (update o g p) as [[o' p'] [q|e]]; reflexivity.
  - destruct (update o h p) as [[o' p'] [q|e]]; [apply IH|reflexivity].
Qed.
Lemma firstn_S {A} (l : list A) t d : t < length l -> firstn (S t) l = firstn t l ++ [nth t l d].
Proof.
  revert t. induction l; cbn [length]; intros t H; [lia|]. destruct t; [reflexivity|].
  cbn [firstn app nth]. rewrite <- IHl by lia. reflexivity.
Qed.

(** One coordinate through time: (state, parameter). *)
Fixpoint traj (o : opt) (y : nat -> num) (x0 : num) (t : nat) : num * num * num :=
  match t with
  | O => ((0, 0)%R, (0, 0)%R, x0)
  | S t =>
    let '(a, b, x) := traj o y x0 t in
    (stepA o a b (y t), stepB o t a b (y t) x, nsub x (stepD o t a b (y t) x))
  end.
Definition path_of (o : opt) (p : arr) (gs : list arr) (t : nat) : list num :=
  map (fun k => snd (traj o (fun i => grad_at gs i k) (entry (a_vals p) k) t)) (seq 0 (size p)).

Lemma path_entry o p gs t k : k < size p ->
  entry (path_of o p gs t) k = snd (traj o (fun i => grad_at gs i k) (entry (a_vals p) k) t).
Proof.
  intros H. unfold entry at 1, path_of. set (f := fun k => _).
  rewrite (nth_indep _ _ (f 0)) by (rewrite map_length, seq_length; exact H).
  rewrite map_nth, seq_nth by exact H. reflexivity.
Qed.
Lemma path_length o p gs t : length (path_of o p gs t) = size p.
Proof. unfold path_of. rewrite map_length, seq_length. reflexivity. Qed.

Lemma rank_pos d : d <> DInt -> 1 <= rank d.
Proof. destruct d; cbn; intros; try lia. congruence. Qed.

Lemma run_main o0 o p gs A0 B0 :
  suited p gs -> biased o0 ->
  rep o0 (a_dt p) (size p) 0 A0 B0 o -> a_vals A0 = repeat (0, 0)%R (size p) -> a_vals B0 = repeat (0, 0)%R (size p) ->
  forall t, t <= length gs ->
  exists A B o', run o p (firstn t gs) = (o', Arr (a_dt p) (path_of o0 p gs t), Ok tt) /\
    rep o0 (a_dt p) (size p) t A B o' /\
    forall k, k < size p -> exists x, traj o0 (fun i => grad_at gs i k) (entry (a_vals p) k) t =
      (entry (a_vals A) k, entry (a_vals B) k, x).
Proof.
  intros (HD & HF) HB HR0 VA VB. induction t; intros HT.
  - exists A0, B0, o. cbn [firstn run]. split.
    { f_equal. f_equal. destruct p as [dp vp]. cbn [a_dt]. f_equal.
      apply vals_ext; [rewrite path_length; reflexivity|]. intros k HK. rewrite path_entry by exact HK. reflexivity. }
    split; [exact HR0|]. intros k HK. exists (entry (a_vals p) k). cbn [traj]. rewrite VA, VB, !repeat_entry. reflexivity.
  - destruct IHt as (A & B & o' & ER & HR & HE); [lia|].
    assert (HL : t < length gs) by lia.
    set (g := nth t gs (Arr DReal [])).
    assert (Hg : fits p g) by (apply (proj1 (Forall_forall _ _) HF), nth_In; exact HL).
    destruct (step_main o0 (a_dt p) (size p) t A B o' g (Arr (a_dt p) (path_of o0 p gs t)) HR) as (A' & B' & o2 & P' & EU & HR' & LP & HS);
      auto.
    { unfold size at 1. cbn. apply path_length. }
    { apply rank_pos, HD. }
    { destruct Hg as [F1 F2]. split; [unfold size at 2; cbn; rewrite path_length; exact F1|exact F2]. }
    exists A', B', o2. split; [|split; [exact HR'|]].
    + rewrite (firstn_S gs t (Arr DReal [])) by exact HL. fold g. rewrite run_snoc, ER, EU.
      do 2 f_equal. f_equal. apply vals_ext; [rewrite path_length; exact LP|].
      intros k HK. rewrite LP in HK. destruct (HS k HK) as (_ & _ & E). rewrite E.
      rewrite path_entry by exact HK. destruct (HE k HK) as (x & Ex). cbn [traj]. rewrite Ex. cbn [snd a_vals].
      rewrite path_entry by exact HK. rewrite Ex. cbn [snd]. reflexivity.
    + intros k HK. destruct (HS k HK) as (E1 & E2 & E3). destruct (HE k HK) as (x & Ex).
      cbn [traj]. rewrite Ex. eexists. rewrite E1, E2. cbn [a_vals]. rewrite path_entry by exact HK. rewrite Ex. cbn [snd].
      reflexivity.
Qed.

Lemma rep_blank o0 p : a_dt p <> DInt -> o0 = blank o0 -> rep o0 (a_dt p) (size p) 0 (zeros (size p) DReal) (zeros (size p) DReal) o0.
Proof.
  intros HD HB. pose proof (rank_pos _ HD).
  repeat split; try (unfold size at 1; cbn; apply repeat_length); try (cbn; lia).
  right. repeat split; auto.
Qed.

(** The two coordinates of the state, as functions of time. *)
Definition sA o y x t := fst (fst (traj o y x t)).
Definition sB o y x t := snd (fst (traj o y x t)).
Definition sX o y x t := snd (traj o y x t).
Lemma sA_S o y x t : sA o y x (S t) = stepA o (sA o y x t) (sB o y x t) (y t).
Proof. unfold sA, sB. cbn [traj]. destruct (traj o y x t) as [[a b] z]. reflexivity. Qed.
Lemma sB_S o y x t : sB o y x (S t) = stepB o t (sA o y x t) (sB o y x t) (y t) (sX o y x t).
Proof. unfold sA, sB, sX. cbn [traj]. destruct (traj o y x t) as [[a b] z]. reflexivity. Qed.
Lemma sX_S o y x t : sX o y x (S t) = nsub (sX o y x t) (stepD o t (sA o y x t) (sB o y x t) (y t) (sX o y x t)).
Proof. unfold sA, sB, sX. cbn [traj]. destruct (traj o y x t) as [[a b] z]. reflexivity. Qed.

Lemma fresh_follows o p gs : o = blank o -> biased o -> suited p gs -> follows o p gs (path_of o p gs).
Proof.
  intros HB HO HS. split.
  - apply vals_ext; [rewrite path_length; reflexivity|]. intros k HK. rewrite path_length in HK. rewrite path_entry by exact HK. reflexivity.
  - intros t HT. split; [apply path_length|].
    destruct (run_main o o p gs (zeros (size p) DReal) (zeros (size p) DReal) HS HO (rep_blank _ _ (proj1 HS) HB) eq_refl eq_refl t HT)
      as (A & B & o' & E & _). exists o'. exact E.
Qed.

(** General form of the theorems: coordinate recursions along the path. *)
Lemma history o p gs : o = blank o -> biased o -> suited p gs ->
  follows o p gs (path_of o p gs) /\
  forall k, k < size p -> forall t,
    let y := fun i => grad_at gs i k in let x := entry (a_vals p) k in
    entry (path_of o p gs t) k = sX o y x t.
Proof.
  intros HB HO HS. split; [apply fresh_follows; auto|]. intros k HK t y x. apply path_entry. exact HK.
Qed.

(** ** Closed forms *)
Lemma sumR_ext n f g : (forall i, i < n -> f i = g i) -> sumR n f = sumR n g.
Proof. induction n; intros H; cbn [sumR]; [reflexivity|]. rewrite IHn, H by auto. reflexivity. Qed.
Lemma sumR_scal n c f : sumR n (fun i => c * f i)%R = (c * sumR n f)%R.
Proof. induction n; cbn [sumR]; [ring|]. rewrite IHn. ring. Qed.
Lemma ema_S b t x : ema b (S t) x = (b * ema b t x + (1 - b) * x (S t))%R.
Proof.
  unfold ema. cbn [sumR]. rewrite Nat.sub_diag. cbn [pow].
  replace (S t - t) with 1 by lia.
  rewrite (sumR_ext t (fun i => (1 - b) * b ^ (S t - i) * x i)%R (fun i => b * ((1 - b) * b ^ (t - i) * x i))%R).
  2:{ intros i Hi. replace (S t - i) with (S (t - i)) by lia. cbn [pow]. ring. }
  rewrite sumR_scal. replace (t - t) with 0 by lia. cbn [pow]. ring.
Qed.
Lemma ema_0 b x : ema b 0 x = ((1 - b) * x 0%nat)%R.
Proof. unfold ema. cbn. ring. Qed.

(** an average kept in the state *)
Lemma ema_state b (s : nat -> R) (x : nat -> R) :
  s 0 = 0%R -> (forall t, s (S t) = (b * s t + (1 - b) * x t)%R) -> forall t, s (S t) = ema b t x.
Proof.
  intros H0 HS. induction t; rewrite HS.
  - rewrite H0, ema_0. ring.
  - rewrite IHt, ema_S. ring.
Qed.
