(** * Proofs: the legacy parallel tempering sampler *)
From Coq Require Import List ZArith Bool Reals Permutation Lra Lia.
From Verif Require Import Base BaseFacts Balance_Spec Balance_Proofs Rules_Model PT_Proofs LegSamp_Model LegSamp_Spec LegSamp_Run.
Import ListNotations.
Open Scope nat_scope.

(** ** Exchanging two entries *)
Lemma swap2_length {A} (d : A) i j l : length (swap2 d i j l) = length l.
Proof. unfold swap2. rewrite !upd_length. reflexivity. Qed.

Lemma swap2_nth {A} (d : A) i j l k : i < length l -> j < length l ->
  nth k (swap2 d i j l) d = if k =? j then nth i l d else if k =? i then nth j l d else nth k l d.
Proof.
  intros Hi Hj. unfold swap2. destruct (Nat.eqb_spec k j) as [->|Hkj].
  - rewrite nth_upd_same by (rewrite upd_length; lia). reflexivity.
  - rewrite nth_upd_other by congruence. destruct (Nat.eqb_spec k i) as [->|Hki].
    + rewrite nth_upd_same by lia. reflexivity.
    + rewrite nth_upd_other by congruence. reflexivity.
Qed.

Lemma swap2_perm {A} (d : A) i j l : i < length l -> j < length l -> Permutation l (swap2 d i j l).
Proof.
  intros Hi Hj. apply (perm_of_invol d l (swap2 d i j l) (fun k => if k =? j then i else if k =? i then j else k)).
  - apply swap2_length.
  - intros k Hk. split; [destruct (k =? j), (k =? i); lia|].
    destruct (Nat.eqb_spec k j) as [E1|E1].
    + destruct (Nat.eqb_spec i j) as [E2|E2]; [lia|]. rewrite Nat.eqb_refl. lia.
    + destruct (Nat.eqb_spec k i) as [E2|E2]; [rewrite Nat.eqb_refl; lia|].
      destruct (Nat.eqb_spec k j); [lia|]. destruct (Nat.eqb_spec k i); lia.
  - intros k Hk. rewrite swap2_nth by assumption. destruct (k =? j), (k =? i); reflexivity.
Qed.

Lemma range_lt n o i : o < 2 -> In i (swap_range n o) -> i < n.
Proof.
  intros Ho H. apply in_map_iff in H. destruct H as (q & <- & Hq). apply in_seq in Hq.
  assert (2 * ((n + 1 - o) / 2) <= n + 1 - o) by (apply Nat.mul_div_le; lia). lia.
Qed.

Section Tempering.
  Context {Par Gen : Type}.
  Variable size : nat.
  Variable logv : Par -> cfg -> R.
  Variable k_move : Gen -> list cfg -> Gen * list (cfg * R).
  Variable k_random : Gen -> nat -> Gen * list cfg.
  Variable unif : Gen -> Gen * R.
  Variable rint2 : Gen -> Gen * bool.
  Hypothesis Hk : keeps_chains k_move k_random.
  Notation ptm := (ptm Par Gen).
  Notation xst := (xst Gen).
  Notation swap_pair := (swap_pair unif).
  Notation exchange_step := (exchange_step unif rint2).
  Notation fixed_step := (fixed_step logv k_move unif).
  Notation pt_sweeps := (pt_sweeps logv k_move unif rint2).
  Notation pt_next := (pt_next logv k_move unif rint2).
  Notation pt_reset := (pt_reset logv k_random).
  Notation pt_run := (pt_run logv k_move k_random unif rint2).
  Notation pt_init := (pt_init size logv k_random).

  (** *** Bookkeeping of the exchanges, any number of replicas *)
  Definition xinv (n : nat) (b0 : list R) (x : xst) : Prop :=
    length (x_beta x) = n /\ length (x_acc x) = n /\ Permutation b0 (x_beta x) /\
    x_pos x < n /\ nth (x_pos x) (x_beta x) 0%R = 1%R.

  Lemma swap_pair_inv n b0 x i : i < n -> xinv n b0 x -> xinv n b0 (swap_pair n x i).
  Proof.
    intros Hi (H1 & H2 & H3 & H4 & H5). unfold swap_pair, LegSamp_Model.swap_pair.
    assert (Hj : (i + 1) mod n < n) by (apply Nat.mod_upper_bound; lia).
    set (j := (i + 1) mod n) in *. destruct (unif (x_gen x)) as [g u].
    destruct (Rlt_dec u _); [|repeat split; assumption]. unfold xinv. cbn [x_beta x_acc x_pos].
    rewrite !swap2_length. repeat split; auto.
    - transitivity (x_beta x); [exact H3|]. apply swap2_perm; lia.
    - destruct (x_pos x =? i), (x_pos x =? j); lia.
    - rewrite swap2_nth by lia.
      destruct (Nat.eqb_spec (x_pos x) i) as [E|E].
      + rewrite Nat.eqb_refl. rewrite <- E. exact H5.
      + destruct (Nat.eqb_spec (x_pos x) j) as [E2|E2].
        * destruct (Nat.eqb_spec i j) as [E3|E3]; [congruence|]. rewrite Nat.eqb_refl, <- E2. exact H5.
        * destruct (Nat.eqb_spec (x_pos x) j); [congruence|]. destruct (Nat.eqb_spec (x_pos x) i); [congruence|]. exact H5.
  Qed.

  Lemma swap_fold_inv n b0 : forall L x, (forall i, In i L -> i < n) -> xinv n b0 x -> xinv n b0 (fold_left (swap_pair n) L x).
  Proof.
    induction L as [|i L IH]; intros x HL Hx; [exact Hx|]. cbn [fold_left]. apply IH; [intros j Hj; apply HL; right; exact Hj|].
    apply swap_pair_inv; [apply HL; left; reflexivity|exact Hx].
  Qed.

  Definition tinv (n : nat) (b0 : list R) (s : ptm) : Prop :=
    length (t_state s) = n /\ length (t_lv s) = n /\ length (t_prop s) = n /\
    length (t_beta s) = n /\ length (t_acc s) = n /\ Permutation b0 (t_beta s) /\
    t_pos s < n /\ nth (t_pos s) (t_beta s) 0%R = 1%R.

  Lemma propose_length n o b p : length (propose n o b p) = length p.
  Proof.
    unfold propose. revert p. induction (swap_range n o) as [|i L IH]; intros p; [reflexivity|]. cbn [fold_left].
    rewrite IH, !upd_length. reflexivity.
  Qed.

  Lemma exchange_inv n b0 s : tinv n b0 s -> tinv n b0 (exchange_step s).
  Proof.
    intros (H1 & H2 & H3 & H4 & H5 & H6 & H7 & H8). unfold exchange_step, LegSamp_Model.exchange_step.
    destruct (rint2 (t_gen s)) as [g o]. rewrite H4. set (prop := propose n _ _ _).
    set (x0 := Xst _ _ _ _ _). set (L := swap_range n _).
    assert (X : xinv n b0 (fold_left (swap_pair n) L x0)).
    { apply swap_fold_inv.
      - intros i Hi. apply (range_lt n (if o then 1 else 0)); [destruct o; lia|exact Hi].
      - repeat split; assumption. }
    destruct X as (X1 & X2 & X3 & X4 & X5). unfold position_stats. unfold tinv. cbn [t_state t_lv t_prop t_beta t_acc t_pos].
    unfold prop. rewrite propose_length. repeat split; auto.
  Qed.

  (** *** Moves at fixed temperature *)
  Fixpoint fb_decide (pow : R) (us : list R) (rows : list (cfg * R * R * nat)) (props : list (cfg * R * R)) : list bool :=
    match us, rows, props with
    | u :: us, (x, l, b, n) :: rows, (y, l1, c) :: props =>
        (if Rlt_dec u (exp (pow * b * (l1 - l + c))) then true else false) :: fb_decide pow us rows props
    | _, _, _ => []
    end.

  Lemma fb_loop_is pow : forall rows props g, length props = length rows ->
    let ds := fb_decide pow (draws unif (length rows) g) rows props in
    length ds = length rows /\
    map fst (snd (fb_loop unif pow g rows props)) = where_true ds (map fst props) (map (fun r => fst (fst r)) rows) /\
    map snd (snd (fb_loop unif pow g rows props)) = where_true ds (map (fun r => S (snd r)) rows) (map snd rows).
  Proof.
    induction rows as [|[[[x l] b] k] rows IH]; intros [|[[y l1] c] props] g H; try discriminate; [repeat split|].
    cbn [fb_loop length draws]. destruct (unif g) as [g' u]. cbn [fb_decide].
    specialize (IH props g' ltac:(cbn in H; lia)). cbn zeta in *.
    destruct (fb_loop unif pow g' rows props) as [g2 out]. cbn [fst snd map where_true length] in *.
    destruct IH as (-> & -> & ->). destruct (Rlt_dec u _); repeat split.
  Qed.

  Definition fixed_ds (s : ptm) : list bool :=
    let '(g, prop) := k_move (t_gen s) (t_state s) in
    fb_decide (t_pow s) (draws unif (length (t_state s)) g)
      (combine (combine (combine (t_state s) (t_lv s)) (t_beta s)) (t_acc s))
      (map (fun t => (fst t, logv (t_par s) (fst t), snd t)) prop).

  Lemma map_fst_combine {A B} : forall (l : list A) (m : list B), length m = length l -> map fst (combine l m) = l.
  Proof. induction l as [|x l IH]; intros [|y m] H; cbn in *; try lia; [reflexivity|]. rewrite IH by lia. reflexivity. Qed.
  Lemma map_snd_combine {A B} : forall (l : list A) (m : list B), length m = length l -> map snd (combine l m) = m.
  Proof. induction l as [|x l IH]; intros [|y m] H; cbn in *; try lia; [reflexivity|]. rewrite IH by lia. reflexivity. Qed.

  Lemma fixed_main n b0 s : tinv n b0 s ->
    let ys := map fst (snd (k_move (t_gen s) (t_state s))) in
    length (fixed_ds s) = n /\
    t_state (fixed_step s) = where_true (fixed_ds s) ys (t_state s) /\
    t_lv (fixed_step s) = where_true (fixed_ds s) (map (logv (t_par s)) ys) (t_lv s) /\
    t_acc (fixed_step s) = where_true (fixed_ds s) (map S (t_acc s)) (t_acc s).
  Proof.
    intros (H1 & H2 & H3 & H4 & H5 & _). pose proof (proj1 Hk (t_gen s) (t_state s)) as Hm.
    unfold fixed_step, LegSamp_Model.fixed_step, fixed_ds.
    destruct (k_move (t_gen s) (t_state s)) as [g prop]. cbn [snd] in *. cbn zeta.
    set (props := map (fun t => (fst t, logv (t_par s) (fst t), snd t)) prop).
    set (rows := combine (combine (combine (t_state s) (t_lv s)) (t_beta s)) (t_acc s)).
    assert (Hr : length rows = n) by (unfold rows; rewrite !combine_length; lia).
    assert (Hp : length props = length rows) by (unfold props; rewrite map_length; lia).
    pose proof (fb_loop_is (t_pow s) rows props g Hp) as (E0 & E1 & E2). cbn zeta in *. rewrite Hr in *. rewrite H1.
    destruct (fb_loop unif (t_pow s) g rows props) as [g2 out]. cbn [fst snd t_state t_lv t_acc] in *.
    assert (R1 : map (fun r => fst (fst r)) rows = combine (t_state s) (t_lv s)).
    { unfold rows. rewrite <- (map_map fst fst). rewrite !map_fst_combine; rewrite ?combine_length; lia || reflexivity. }
    assert (R2 : map snd rows = t_acc s).
    { unfold rows. apply map_snd_combine. rewrite !combine_length. lia. }
    rewrite R1 in E1. rewrite R2 in E2.
    assert (R3 : map (fun r => S (snd r)) rows = map S (t_acc s)) by (rewrite <- R2, map_map; reflexivity).
    rewrite R3 in E2.
    split; [exact E0|]. split; [|split].
    - rewrite <- (map_map fst fst), E1, where_true_map, map_fst_combine by lia.
      unfold props. rewrite !map_map. reflexivity.
    - rewrite <- (map_map fst snd), E1, where_true_map, map_snd_combine by lia.
      unfold props. rewrite !map_map. reflexivity.
    - exact E2.
  Qed.

  Lemma fixed_other s : t_par (fixed_step s) = t_par s /\ t_beta (fixed_step s) = t_beta s /\
    t_prop (fixed_step s) = t_prop s /\ t_pos (fixed_step s) = t_pos s /\ t_mean (fixed_step s) = t_mean s /\
    t_m2 (fixed_step s) = t_m2 s /\ t_steps (fixed_step s) = t_steps s /\ t_pow (fixed_step s) = t_pow s.
  Proof.
    unfold fixed_step, LegSamp_Model.fixed_step. destruct (k_move (t_gen s) (t_state s)) as [g prop].
    destruct (fb_loop _ _ _ _ _) as [g2 out]. repeat split.
  Qed.

  Lemma fixed_inv n b0 s : tinv n b0 s -> tinv n b0 (fixed_step s).
  Proof.
    intros H. destruct (fixed_main n b0 s H) as (E0 & E1 & E2 & E3).
    destruct (fixed_other s) as (_ & F1 & F2 & F3 & _).
    destruct H as (H1 & H2 & H3 & H4 & H5 & H6 & H7 & H8).
    pose proof (proj1 Hk (t_gen s) (t_state s)) as Hm.
    unfold tinv. rewrite E1, E2, E3, F1, F2, F3, !where_true_length; rewrite ?map_length; try lia.
    repeat split; auto.
  Qed.

  Lemma fb_decide_nth pow : forall us rows props i dx dy, i < length rows -> length props = length rows ->
    length us = length rows ->
    (nth i (fb_decide pow us rows props) false = true <->
     (nth i us 0 < exp (pow * snd (fst (nth i rows dx)) *
        (snd (fst (nth i props dy)) - snd (fst (fst (nth i rows dx))) + snd (nth i props dy))))%R).
  Proof.
    induction us as [|u us IH]; intros [|[[[x l] b] k] rows] [|[[y l1] c] props] i dx dy Hi H1 H2; cbn in Hi, H1, H2; try lia.
    cbn [fb_decide]. destruct i as [|i].
    - cbn [nth fst snd]. destruct (Rlt_dec u _); split; auto; try discriminate; intros; contradiction.
    - cbn [nth]. apply IH; lia.
  Qed.

  Definition tfresh (s : ptm) : Prop := t_lv s = map (logv (t_par s)) (t_state s).

  Lemma fixed_decisions n b0 s : tinv n b0 s -> tfresh s ->
    let '(g, prop) := k_move (t_gen s) (t_state s) in
    let us := draws unif n g in
    exists ds, length ds = n /\
      (forall i dx dy, i < n ->
         (nth i ds false = true <->
          (nth i us 0 < exp (t_pow s * nth i (t_beta s) 0 *
             (logv (t_par s) (fst (nth i prop dy)) - logv (t_par s) (nth i (t_state s) dx) + snd (nth i prop dy))))%R)) /\
      t_state (fixed_step s) = where_true ds (map fst prop) (t_state s) /\
      t_acc (fixed_step s) = where_true ds (map S (t_acc s)) (t_acc s) /\
      tfresh (fixed_step s).
  Proof.
    intros Hi Hf. destruct (fixed_main n b0 s Hi) as (E0 & E1 & E2 & E3). destruct (fixed_other s) as (Fp & _).
    pose proof Hi as (H1 & H2 & H3 & H4 & H5 & _).
    pose proof (proj1 Hk (t_gen s) (t_state s)) as Hm.
    assert (Hf2 : tfresh (fixed_step s)).
    { unfold tfresh. rewrite Fp, E2, E1, where_true_map, Hf. reflexivity. }
    destruct (k_move (t_gen s) (t_state s)) as [g prop] eqn:Ek. cbn [snd] in *. cbn zeta in *.
    exists (fixed_ds s). split; [exact E0|]. split; [|split; [exact E1|split; [exact E3|exact Hf2]]].
    intros i dx dy Hlt. unfold fixed_ds. rewrite Ek.
    rewrite (fb_decide_nth (t_pow s) _ _ _ i (dx, logv (t_par s) dx, 0%R, 0) (fst dy, logv (t_par s) (fst dy), snd dy))
      by (rewrite ?map_length, ?combine_length, ?draws_length, ?combine_length; lia).
    rewrite (map_nth (fun t => (fst t, logv (t_par s) (fst t), snd t))).
    rewrite !combine_nth by (rewrite ?combine_length; lia). cbn [fst snd]. rewrite Hf, (map_nth (logv (t_par s))), H1. reflexivity.
  Qed.

  (** *** Histories *)
  Lemma sweeps_tinv n b0 : forall k s, tinv n b0 s -> tinv n b0 (pt_sweeps k s).
  Proof.
    induction k as [|k IH]; intros s H; [exact H|]. cbn. apply IH, exchange_inv, fixed_inv, H.
  Qed.

  Lemma reset_tinv n b0 b s : tinv n b0 s -> tinv n b0 (pt_reset b s).
  Proof.
    intros (H1 & H2 & H3 & H4 & H5 & H6 & H7 & H8). unfold pt_reset, LegSamp_Model.pt_reset.
    pose proof (proj2 Hk (t_gen s) (length (t_state s))) as E. destruct b.
    - destruct (k_random _ _) as [g st]. cbn [snd] in E. unfold tinv; cbn. rewrite map_length, repeat_length. repeat split; auto; lia.
    - unfold tinv; cbn. rewrite map_length, repeat_length. repeat split; auto; lia.
  Qed.

  Lemma run_tinv n b0 : forall ops s, tinv n b0 s -> tinv n b0 (pt_run ops s).
  Proof.
    induction ops as [|o ops IH]; intros s H; [exact H|]. unfold pt_run, LegSamp_Model.pt_run. cbn [fold_left].
    apply IH. destruct o as [b| |p|p]; cbn [pt_apply].
    - apply reset_tinv, H.
    - exact (sweeps_tinv n b0 _ s H).
    - exact H.
    - exact H.
  Qed.

  Lemma betas_length n : length (leg_betas n) = n.
  Proof. unfold leg_betas. rewrite map_length, seq_length. reflexivity. Qed.
  Lemma betas_nth n i : i < n -> nth i (leg_betas n) 0%R = (1 - INR i / INR n)%R.
  Proof. intros H. unfold leg_betas. apply (nth_map_seq (fun i => (1 - INR i / INR n)%R) n i 0%R H). Qed.
  Lemma betas_one n i : i < n -> nth i (leg_betas n) 0%R = 1%R -> i = 0.
  Proof.
    intros H E. rewrite betas_nth in E by exact H. destruct i as [|i]; [reflexivity|].
    assert (Hn : (0 < INR n)%R) by (apply lt_0_INR; lia).
    assert (Hi : (0 < INR (S i) / INR n)%R) by (apply Rdiv_lt_0_compat; [apply lt_0_INR; lia|exact Hn]). lra.
  Qed.
  Lemma betas_nodup n : NoDup (leg_betas n).
  Proof.
    apply (NoDup_nth _ 0%R). rewrite betas_length. intros i j Hi Hj E. rewrite !betas_nth in E by assumption.
    assert (Hn : (0 < INR n)%R) by (apply lt_0_INR; lia).
    apply INR_eq. apply (Rmult_eq_reg_r (/ INR n)); [|apply Rinv_neq_0_compat; lra]. unfold Rdiv in E. lra.
  Qed.

  Lemma pt_init_tinv junk p g n sw s : length junk = Z.to_nat n -> pt_init junk p g n sw = Ok s ->
    tinv (Z.to_nat n) (leg_betas (Z.to_nat n)) s /\ (1 <= n)%Z.
  Proof.
    intros Hj. unfold pt_init, LegSamp_Model.pt_init, set_replicas. destruct (Z.ltb_spec n 1) as [H|H]; [discriminate|].
    cbn [bind]. intros E. injection E as <-. split; [|lia].
    unfold LegSamp_Model.pt_reset. cbn [t_gen t_state].
    pose proof (proj2 Hk g (length (repeat (repeat 0%Z size) (Z.to_nat n)))) as E. rewrite repeat_length in *.
    destruct (k_random _ _) as [g' st]. cbn [snd] in E. unfold tinv; cbn. rewrite map_length, repeat_length, betas_length.
    repeat split; auto; try lia. rewrite betas_nth by lia. cbn. unfold Rdiv. ring.
  Qed.

  Lemma pt_main junk p g n sw s ops : length junk = Z.to_nat n -> pt_init junk p g n sw = Ok s ->
    let s' := pt_run ops s in
    Permutation (leg_betas (Z.to_nat n)) (t_beta s') /\
    t_pos s' < Z.to_nat n /\ (forall i, i < Z.to_nat n -> (nth i (t_beta s') 0%R = 1%R <-> i = t_pos s')) /\
    let s'' := fst (pt_next s') in
    snd (pt_next s') = Ok (nth (t_pos s'') (t_state s'') []) /\
    nth (t_pos s'') (t_beta s'') 0%R = 1%R.
  Proof.
    intros Hj E. destruct (pt_init_tinv junk p g n sw s Hj E) as [Hi Hn]. cbn zeta.
    pose proof (run_tinv _ _ ops s Hi) as H. set (s' := pt_run ops s) in *.
    pose proof H as (H1 & H2 & H3 & H4 & H5 & H6 & H7 & H8).
    split; [exact H6|]. split; [exact H7|]. split.
    - intros i Hlt. split; [|intros ->; exact H8]. intros E1.
      assert (Hnd : NoDup (t_beta s')) by (eapply Permutation_NoDup; [exact H6|apply betas_nodup]).
      apply (proj1 (NoDup_nth _ 0%R) Hnd); [lia|lia|congruence].
    - pose proof (sweeps_tinv _ _ (t_sweep s') s' H) as (K1 & _ & _ & _ & _ & _ & K7 & K8).
      unfold pt_next, LegSamp_Model.pt_next. cbn [fst snd t_pos t_state t_beta]. split; [|exact K8].
      rewrite (@nth_error_nth' cfg _ _ []) by lia. reflexivity.
  Qed.

  (** *** Statistics of the position *)
  Fixpoint sq (l : list nat) : R := match l with [] => 0%R | x :: l => (INR x * INR x + sq l)%R end.
  Lemma sq_dev_is l : l <> [] -> sq_dev l = (sq l - rsum INR l * rsum INR l / INR (length l))%R.
  Proof.
    intros Hl. assert (Hn : (INR (length l) <> 0)%R) by (destruct l; [congruence|]; apply not_0_INR; discriminate).
    unfold sq_dev. set (m := mean_of l).
    assert (G : forall k, rsum (fun x => (INR x - m) * (INR x - m))%R k = (sq k - 2 * m * rsum INR k + INR (length k) * (m * m))%R).
    { induction k as [|x k IH]; [cbn; ring|]. cbn [rsum sq length]. rewrite IH, S_INR. ring. }
    rewrite G. unfold m, mean_of. field. exact Hn.
  Qed.

  Lemma rsum_app {A} (f : A -> R) l m : rsum f (l ++ m) = (rsum f l + rsum f m)%R.
  Proof. induction l as [|x l IH]; cbn; [ring|rewrite IH; ring]. Qed.
  Lemma sq_app l m : sq (l ++ m) = (sq l + sq m)%R.
  Proof. induction l as [|x l IH]; cbn; [ring|rewrite IH; ring]. Qed.

  Definition stats_ok (ps : list nat) (mean m2 : R) (steps : nat) : Prop :=
    steps = length ps /\ (ps = [] -> mean = 0%R /\ m2 = 0%R) /\
    (ps <> [] -> mean = mean_of ps /\ m2 = (sq ps - rsum INR ps * rsum INR ps / INR (length ps))%R).

  Lemma stats_step ps mean m2 steps x : stats_ok ps mean m2 steps ->
    let '(mean', m2', steps') := position_stats x mean m2 steps in stats_ok (ps ++ [x]) mean' m2' steps'.
  Proof.
    intros (H1 & H2 & H3). unfold position_stats. subst steps.
    split; [rewrite app_length; cbn; lia|]. split; [destruct ps; discriminate|]. intros _.
    unfold mean_of. rewrite !rsum_app, sq_app, app_length, Nat.add_1_r, S_INR. cbn [rsum sq]. rewrite !Rplus_0_r.
    destruct ps as [|y ps].
    - destruct (H2 eq_refl) as [-> ->]. cbn. split; field.
    - destruct H3 as [-> ->]; [discriminate|]. unfold mean_of.
      assert (Hn : (INR (length (y :: ps)) <> 0)%R) by (apply not_0_INR; discriminate).
      assert (Hn1 : (INR (length (y :: ps)) + 1 <> 0)%R) by (rewrite <- S_INR; apply not_0_INR; discriminate).
      revert Hn Hn1. generalize (INR (length (y :: ps))), (rsum INR (y :: ps)), (sq (y :: ps)). intros k S2 Q Hn Hn1.
      split; field; auto.
  Qed.

  Lemma exchange_stats (s : ptm) : let '(mean, m2, st) := position_stats (t_pos (exchange_step s)) (t_mean s) (t_m2 s) (t_steps s) in
    t_mean (exchange_step s) = mean /\ t_m2 (exchange_step s) = m2 /\ t_steps (exchange_step s) = st.
  Proof.
    unfold exchange_step, LegSamp_Model.exchange_step. destruct (rint2 (t_gen s)) as [g o].
    unfold position_stats. cbn. repeat split.
  Qed.

  Lemma stats_main k : forall (s : ptm) ps, stats_ok ps (t_mean s) (t_m2 s) (t_steps s) ->
    stats_ok (ps ++ map t_pos (trace (fun s => exchange_step (fixed_step s)) k s))
      (t_mean (pt_sweeps k s)) (t_m2 (pt_sweeps k s)) (t_steps (pt_sweeps k s)).
  Proof.
    induction k as [|k IH]; intros s ps H; [cbn; rewrite app_nil_r; exact H|]. cbn [trace map LegSamp_Model.pt_sweeps].
    set (s1 := exchange_step (fixed_step s)).
    replace (ps ++ t_pos s1 :: map t_pos (trace (fun s => exchange_step (fixed_step s)) k s1))
      with ((ps ++ [t_pos s1]) ++ map t_pos (trace (fun s => exchange_step (fixed_step s)) k s1)) by (rewrite <- app_assoc; reflexivity).
    apply IH. destruct (fixed_other s) as (_ & _ & _ & _ & F1 & F2 & F3 & _). rewrite <- F1, <- F2, <- F3 in H.
    pose proof (stats_step ps _ _ _ (t_pos s1) H) as G. pose proof (exchange_stats (fixed_step s)) as E.
    fold s1 in E. destruct (position_stats _ _ _ _) as [[a b] c]. destruct E as (-> & -> & ->). exact G.
  Qed.

  Lemma stats_reset b k (s : ptm) : 0 < k ->
    let s' := pt_sweeps k (pt_reset b s) in
    let ps := map t_pos (trace (fun s => exchange_step (fixed_step s)) k (pt_reset b s)) in
    t_mean s' = mean_of ps /\ t_m2 s' = sq_dev ps /\ t_steps s' = k.
  Proof.
    intros Hk0. cbn zeta.
    assert (Ht : forall (A : Type) (f : A -> A) m a, length (trace f m a) = m)
      by (induction m as [|m IH]; intros a; [reflexivity|cbn; rewrite IH; reflexivity]).
    destruct (stats_main k (pt_reset b s) []) as (E1 & _ & E3).
    { split; [|split].
      - unfold LegSamp_Model.pt_reset. destruct b; [destruct (k_random _ _)|]; reflexivity.
      - intros _. unfold LegSamp_Model.pt_reset. destruct b; [destruct (k_random _ _)|]; split; reflexivity.
      - congruence. }
    cbn [app] in *. set (ps := map t_pos _) in *.
    assert (Hl : length ps = k) by (unfold ps; rewrite map_length; apply Ht).
    assert (Hne : ps <> []) by (intros E; rewrite E in Hl; cbn in Hl; lia).
    destruct (E3 Hne) as [-> ->]. rewrite E1, Hl, sq_dev_is, Hl by exact Hne. repeat split.
  Qed.
End Tempering.
