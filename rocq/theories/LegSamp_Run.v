(** * Proofs: runs of the legacy Metropolis sampler *)
From Coq Require Import List ZArith Bool Reals Lra Lia.
From Verif Require Import Base BaseFacts Rules_Model LegSamp_Model LegSamp_Spec.
Import ListNotations.
Open Scope nat_scope.

Section Loop.
  Context {Gen : Type}.
  Variable unif : Gen -> Gen * R.

  Fixpoint decide (pow : R) (us : list R) (rows : list (cfg * R)) (props : list (cfg * R * R)) : list bool :=
    match us, rows, props with
    | u :: us, (x, l) :: rows, (y, l1, c) :: props =>
        (if Rlt_dec u (acc_prob pow l1 l c) then true else false) :: decide pow us rows props
    | _, _, _ => []
    end.

  Lemma acc_loop_is pow : forall rows props g, length props = length rows ->
    let ds := decide pow (draws unif (length rows) g) rows props in
    snd (fst (acc_loop unif pow g rows props)) = where_true ds (map fst props) rows /\
    snd (acc_loop unif pow g rows props) = count_true ds /\ length ds = length rows.
  Proof.
    induction rows as [|[x l] rows IH]; intros [|[[y l1] c] props] g H; try discriminate; [repeat split|].
    cbn [acc_loop length draws]. destruct (unif g) as [g' u]. cbn [decide].
    specialize (IH props g' ltac:(cbn in H; lia)). cbn zeta in *.
    destruct (acc_loop unif pow g' rows props) as [[g2 out] n]. cbn [fst snd map where_true count_true length] in *.
    destruct IH as (-> & -> & ->). destruct (Rlt_dec u (acc_prob pow l1 l c)); repeat split.
  Qed.

  Lemma decide_nth pow : forall us rows props i dx dy, i < length rows -> length props = length rows ->
    length us = length rows ->
    (nth i (decide pow us rows props) false = true <->
     (nth i us 0 < exp (pow * (snd (fst (nth i props dy)) - snd (nth i rows dx) + snd (nth i props dy))))%R).
  Proof.
    induction us as [|u us IH]; intros [|[x l] rows] [|[[y l1] c] props] i dx dy Hi H1 H2; cbn in Hi, H1, H2; try lia.
    cbn [decide]. destruct i as [|i].
    - cbn [nth fst snd]. unfold acc_prob. destruct (Rlt_dec u _); split; auto; try discriminate; intros; contradiction.
    - cbn [nth]. apply IH; lia.
  Qed.
End Loop.

Lemma draws_length {Gen} (unif : Gen -> Gen * R) n : forall g, length (draws unif n g) = n.
Proof. induction n as [|n IH]; intros g; [reflexivity|]. cbn. destruct (unif g). cbn. rewrite IH. reflexivity. Qed.

Lemma where_true_length {A} : forall ds (a b : list A), length a = length ds -> length b = length ds ->
  length (where_true ds a b) = length ds.
Proof. induction ds as [|d ds IH]; intros [|x a] [|y b] H1 H2; cbn in *; try lia. rewrite IH; lia. Qed.

Lemma where_true_map {A B} (f : A -> B) : forall ds (a b : list A),
  map f (where_true ds a b) = where_true ds (map f a) (map f b).
Proof. induction ds as [|[] ds IH]; intros [|x a] [|y b]; cbn; try reflexivity; rewrite IH; reflexivity. Qed.

Lemma count_true_bounds ds : (0 <= count_true ds <= Z.of_nat (length ds))%Z.
Proof. induction ds as [|[] ds IH]; cbn [count_true length]; lia. Qed.

Section Run.
  Context {Par Gen : Type}.
  Variable size : nat.
  Variable logv : Par -> cfg -> R.
  Variable k_move : Gen -> list cfg -> Gen * list (cfg * R).
  Variable k_random : Gen -> nat -> Gen * list cfg.
  Variable unif : Gen -> Gen * R.
  Hypothesis Hk : keeps_chains k_move k_random.
  Notation smp := (smp Par Gen).
  Notation one_sweep := (one_sweep logv k_move unif).
  Notation sweeps := (sweeps logv k_move unif).
  Notation next := (next logv k_move unif).
  Notation nexts := (nexts logv k_move unif).
  Notation reset := (reset logv k_random).
  Notation gen_loop := (gen_loop logv k_move unif).
  Notation generate := (generate logv k_move k_random unif).
  Notation apply := (apply size logv k_move k_random unif).
  Notation run := (run size logv k_move k_random unif).
  Notation init := (init size logv k_random).

  Definition fresh (s : smp) : Prop := s_lv s = map (logv (s_par s)) (s_state s).
  Definition shaped (s : smp) : Prop := length (s_lv s) = length (s_state s) /\ length (s_state s) = s_chains s.

  (** One sweep of any sampler. *)
  Definition sweep_ds (s : smp) : list bool :=
    let '(g, prop) := k_move (s_gen s) (s_state s) in
    decide (s_pow s) (draws unif (length (s_state s)) g) (combine (s_state s) (s_lv s))
      (map (fun t => (fst t, logv (s_par s) (fst t), snd t)) prop).

  Lemma sweep_main s : length (s_lv s) = length (s_state s) ->
    let ys := map fst (snd (k_move (s_gen s) (s_state s))) in
    length (sweep_ds s) = length (s_state s) /\
    s_state (one_sweep s) = where_true (sweep_ds s) ys (s_state s) /\
    s_lv (one_sweep s) = where_true (sweep_ds s) (map (logv (s_par s)) ys) (s_lv s) /\
    s_acc (one_sweep s) = (s_acc s + count_true (sweep_ds s))%Z.
  Proof.
    intros Hl. pose proof (proj1 Hk (s_gen s) (s_state s)) as Hm.
    unfold one_sweep, LegSamp_Model.one_sweep, sweep_ds.
    destruct (k_move (s_gen s) (s_state s)) as [g prop]. cbn [snd] in *. cbn zeta.
    set (props := map (fun t => (fst t, logv (s_par s) (fst t), snd t)) prop).
    set (rows := combine (s_state s) (s_lv s)).
    assert (Hr : length rows = length (s_state s)) by (unfold rows; rewrite combine_length; lia).
    assert (Hp : length props = length rows) by (unfold props; rewrite map_length; lia).
    pose proof (acc_loop_is unif (s_pow s) rows props g Hp) as (E1 & E2 & E3). cbn zeta in *. rewrite Hr in *.
    destruct (acc_loop unif (s_pow s) g rows props) as [[g2 out] n]. cbn [fst snd s_state s_lv s_acc] in *.
    rewrite E1, E2, !where_true_map. split; [exact E3|]. split; [|split; [|reflexivity]].
    - f_equal; [unfold props; rewrite !map_map; reflexivity|]. unfold rows.
      clear -Hl. revert Hl. generalize (s_lv s). induction (s_state s) as [|x l IH]; intros [|v m] H; cbn in *; try lia; [reflexivity|].
      rewrite IH by lia. reflexivity.
    - f_equal; [unfold props; rewrite !map_map; reflexivity|]. unfold rows.
      clear -Hl. revert Hl. generalize (s_lv s). induction (s_state s) as [|x l IH]; intros [|v m] H; cbn in *; try lia; [reflexivity|].
      rewrite IH by lia. reflexivity.
  Qed.

  Lemma sweep_other s : s_par (one_sweep s) = s_par s /\ s_pow (one_sweep s) = s_pow s /\
    s_sweep (one_sweep s) = s_sweep s /\ s_tot (one_sweep s) = s_tot s /\
    s_chains (one_sweep s) = s_chains s /\ s_shape (one_sweep s) = s_shape s.
  Proof.
    unfold one_sweep, LegSamp_Model.one_sweep. destruct (k_move (s_gen s) (s_state s)) as [g prop].
    destruct (acc_loop _ _ _ _ _) as [[g2 out] n]. repeat split.
  Qed.

  Lemma sweep_fresh s : fresh s -> fresh (one_sweep s).
  Proof.
    unfold fresh. intros H. destruct (sweep_main s) as (_ & E1 & E2 & _); [rewrite H, map_length; reflexivity|].
    destruct (sweep_other s) as (Ep & _). rewrite Ep, E2, E1, where_true_map, H. reflexivity.
  Qed.

  Lemma sweep_shaped s : shaped s -> shaped (one_sweep s).
  Proof.
    intros [H1 H2]. destruct (sweep_main s H1) as (E0 & E1 & E2 & _).
    destruct (sweep_other s) as (_ & _ & _ & _ & Ec & _).
    pose proof (proj1 Hk (s_gen s) (s_state s)) as Hm.
    unfold shaped. rewrite E1, E2, Ec, !where_true_length; rewrite ?map_length; lia.
  Qed.

  (** The decisions of an up-to-date sampler are the documented tests. *)
  Lemma sweep_decisions s : fresh s ->
    let '(g, prop) := k_move (s_gen s) (s_state s) in
    let us := draws unif (length (s_state s)) g in
    exists ds, length ds = length (s_state s) /\
      (forall i dx dy, i < length (s_state s) ->
         (nth i ds false = true <->
          (nth i us 0 < exp (s_pow s * (logv (s_par s) (fst (nth i prop dy)) - logv (s_par s) (nth i (s_state s) dx)
                                        + snd (nth i prop dy))))%R)) /\
      s_state (one_sweep s) = where_true ds (map fst prop) (s_state s) /\
      s_acc (one_sweep s) = (s_acc s + count_true ds)%Z /\
      fresh (one_sweep s).
  Proof.
    intros Hf. pose proof Hf as Hf0. unfold fresh in Hf0.
    destruct (sweep_main s) as (E0 & E1 & _ & E3); [rewrite Hf0, map_length; reflexivity|].
    pose proof (proj1 Hk (s_gen s) (s_state s)) as Hm.
    pose proof (sweep_fresh s Hf) as Hf2.
    destruct (k_move (s_gen s) (s_state s)) as [g prop] eqn:Ek. cbn [snd] in *. cbn zeta in *.
    exists (sweep_ds s). split; [exact E0|]. split; [|split; [exact E1|split; [exact E3|exact Hf2]]].
    intros i dx dy Hi. unfold sweep_ds. rewrite Ek.
    assert (Hl : length (s_lv s) = length (s_state s)) by (rewrite Hf0, map_length; reflexivity).
    rewrite (decide_nth (s_pow s) _ _ _ i (dx, logv (s_par s) dx) (fst dy, logv (s_par s) (fst dy), snd dy))
      by (rewrite ?map_length, ?combine_length, ?draws_length; lia).
    rewrite (map_nth (fun t => (fst t, logv (s_par s) (fst t), snd t))).
    rewrite combine_nth by lia. cbn [fst snd]. rewrite Hf0.
    rewrite (map_nth (logv (s_par s))). reflexivity.
  Qed.

  Lemma sweeps_inv (P : smp -> Prop) : (forall s, P s -> P (one_sweep s)) -> forall n s, P s -> P (sweeps n s).
  Proof. intros H. induction n as [|n IH]; intros s Hs; [exact Hs|]. cbn. apply IH, H, Hs. Qed.

  Lemma next_fresh s : fresh s -> fresh (next s).
  Proof. intros H. exact (sweeps_inv fresh sweep_fresh _ s H). Qed.
  Lemma next_shaped s : shaped s -> shaped (next s).
  Proof. intros H. exact (sweeps_inv shaped sweep_shaped _ s H). Qed.

  Lemma reset_fresh b s : fresh (reset b s).
  Proof. unfold fresh, reset, LegSamp_Model.reset. destruct b; [destruct (k_random _ _)|]; reflexivity. Qed.
  Lemma reset_shaped b s : shaped s -> shaped (reset b s).
  Proof.
    intros [H1 H2]. unfold shaped, reset, LegSamp_Model.reset. destruct b.
    - pose proof (proj2 Hk (s_gen s) (length (s_state s))) as E. destruct (k_random _ _) as [g st].
      cbn in *. rewrite map_length. lia.
    - cbn. rewrite map_length. lia.
  Qed.

  Lemma gen_inv (P : smp -> Prop) : (forall s, P s -> P (next s)) -> forall n s, P s -> P (fst (gen_loop n s)).
  Proof.
    intros H. induction n as [|n IH]; intros s Hs; [exact Hs|]. cbn [LegSamp_Model.gen_loop].
    destruct (assign_rows _ _); [|cbn; apply H, Hs].
    specialize (IH (next s) (H s Hs)). destruct (gen_loop n (next s)). exact IH.
  Qed.

  (** Stored values of the machine. *)
  Lemma run_fresh : forall ops b s, shaped s -> (b = true -> fresh s) ->
    shaped (run ops s) /\ (up_to_date b ops = true -> fresh (run ops s)).
  Proof.
    induction ops as [|o ops IH]; intros b s Hs Hf; [split; assumption|].
    unfold run, LegSamp_Model.run. cbn [fold_left]. fold (run ops (apply o s)).
    destruct o as [i| |n i|p|n|n|p]; cbn [up_to_date].
    - apply IH; [apply reset_shaped, Hs|intros _; apply reset_fresh].
    - apply IH; [apply next_shaped, Hs|intros E; apply next_fresh, Hf, E].
    - apply IH.
      + apply (gen_inv shaped next_shaped). apply reset_shaped, Hs.
      + intros _. apply (gen_inv fresh next_fresh). apply reset_fresh.
    - apply IH; assumption.
    - apply IH; assumption.
    - cbn [LegSamp_Model.apply]. unfold set_chains. destruct (n <? 0)%Z; apply IH; try assumption.
      + split; cbn; rewrite !repeat_length; reflexivity.
      + discriminate.
    - apply IH; [assumption|discriminate].
  Qed.

  Lemma init_ok p g n sw s : init p g n sw = Ok s ->
    shaped s /\ fresh s /\ s_chains s = Z.to_nat n /\ s_shape s = Z.to_nat n /\ s_pow s = 2%R /\
    s_par s = p /\ (0 <= s_sweep s)%Z /\ s_acc s = 0%Z /\ s_tot s = 0%Z /\
    s_sweep s = match sw with Some v => v | None => Z.of_nat size end.
  Proof.
    unfold init, LegSamp_Model.init, set_chains, set_sweep. destruct (n <? 0)%Z eqn:En; [discriminate|]. cbn [bind].
    destruct (match sw with Some n0 => n0 | None => Z.of_nat size end <? 0)%Z eqn:Es; [discriminate|]. cbn [bind].
    intros E. injection E as <-. split; [|split].
    - apply reset_shaped. split; cbn; rewrite !repeat_length; reflexivity.
    - apply reset_fresh.
    - unfold LegSamp_Model.reset. destruct (k_random _ _). cbn. repeat split; destruct sw; lia.
  Qed.

  Lemma init_iff p g n sw :
    (exists s, init p g n sw = Ok s) <-> (0 <= n)%Z /\ (forall v, sw = Some v -> 0 <= v)%Z.
  Proof.
    unfold init, LegSamp_Model.init, set_chains, set_sweep.
    destruct (Z.ltb_spec n 0) as [H|H].
    - split; [intros [s E]; discriminate|lia].
    - cbn [bind]. destruct sw as [v|].
      + destruct (Z.ltb_spec v 0) as [H'|H']; cbn [bind]; split; intros A; try (destruct A; discriminate).
        * destruct A as [_ A]. specialize (A v eq_refl). lia.
        * split; [lia|]. intros w E; injection E as <-; lia.
        * eexists; reflexivity.
      + destruct (Z.ltb_spec (Z.of_nat size) 0) as [H'|H']; [lia|]. cbn [bind]. split; [|eexists; reflexivity].
        intros _. split; [lia|discriminate].
  Qed.

  (** Counters. *)
  Definition counted (s : smp) : Prop :=
    shaped s /\ (0 <= s_sweep s)%Z /\ (0 <= s_acc s <= s_tot s)%Z.

  Lemma sweeps_count n : forall s, shaped s ->
    (s_acc s <= s_acc (sweeps n s) <= s_acc s + Z.of_nat n * Z.of_nat (s_chains s))%Z /\
    s_tot (sweeps n s) = s_tot s /\ s_sweep (sweeps n s) = s_sweep s /\ s_chains (sweeps n s) = s_chains s /\
    shaped (sweeps n s).
  Proof.
    induction n as [|n IH]; intros s Hs; [cbn; repeat split; try lia; apply Hs|]. cbn [LegSamp_Model.sweeps].
    specialize (IH (one_sweep s) (sweep_shaped s Hs)).
    destruct (sweep_main s (proj1 Hs)) as (E0 & _ & _ & E3). destruct (sweep_other s) as (_ & _ & F1 & F2 & F3 & _).
    pose proof (count_true_bounds (sweep_ds s)) as Hb. rewrite E0, (proj2 Hs) in Hb.
    rewrite E3, F1, F2, F3 in IH. destruct IH as (I1 & I2 & I3 & I4 & I5).
    split; [|tauto]. rewrite Nat2Z.inj_succ, Z.mul_succ_l. lia.
  Qed.

  Lemma next_counted s : counted s -> counted (next s).
  Proof.
    intros (Hs & H0 & Ha). destruct (sweeps_count (Z.to_nat (s_sweep s)) s Hs) as (I1 & I2 & I3 & I4 & I5).
    split; [exact I5|]. unfold next, LegSamp_Model.next. cbn [s_sweep s_acc s_tot]. rewrite I2, I3.
    rewrite Z2Nat.id in I1 by lia. lia.
  Qed.

  Lemma reset_counted b s : counted s -> counted (reset b s).
  Proof.
    intros (Hs & H0 & Ha). split; [apply reset_shaped, Hs|]. unfold reset, LegSamp_Model.reset.
    destruct b; [destruct (k_random _ _)|]; cbn; lia.
  Qed.

  Lemma run_counted : forall ops s, Forall proper ops -> counted s -> counted (run ops s).
  Proof.
    induction ops as [|o ops IH]; intros s Hp Hs; [exact Hs|]. inversion Hp as [|? ? H1 H2]; subst.
    unfold run, LegSamp_Model.run. cbn [fold_left]. fold (run ops (apply o s)). apply IH; [exact H2|].
    destruct o as [i| |n i|p|n|n|p]; cbn [LegSamp_Model.apply].
    - apply reset_counted, Hs.
    - apply next_counted, Hs.
    - apply (gen_inv counted next_counted). apply reset_counted, Hs.
    - exact Hs.
    - destruct Hs as (Hs & H0 & Ha). split; [exact Hs|]. cbn. cbn in H1. destruct n; lia.
    - destruct H1.
    - exact Hs.
  Qed.

  Lemma acceptance_main p g n sw s ops : init p g n sw = Ok s -> Forall proper ops ->
    forall a, acceptance (run ops s) = Some a -> (0 <= a <= 1)%R.
  Proof.
    intros Hi Hp a E. destruct (init_ok p g n sw s Hi) as (Hs & _ & _ & _ & _ & _ & H0 & Ha & Ht & _).
    destruct (run_counted ops s Hp) as (_ & _ & Hc). { split; [exact Hs|]. rewrite Ha, Ht. lia. }
    unfold acceptance in E. destruct (Z.eqb_spec (s_tot (run ops s)) 0) as [|Hn]; [discriminate|].
    injection E as <-.
    assert (Hpos : (0 < IZR (s_tot (run ops s)))%R) by (apply IZR_lt; lia).
    assert (H1 : (0 <= IZR (s_acc (run ops s)))%R) by (apply IZR_le; lia).
    assert (H2 : (IZR (s_acc (run ops s)) <= IZR (s_tot (run ops s)))%R) by (apply IZR_le; lia).
    split.
    - apply Rmult_le_pos; [exact H1|]. left. apply Rinv_0_lt_compat, Hpos.
    - apply (Rmult_le_reg_r (IZR (s_tot (run ops s)))); [exact Hpos|]. unfold Rdiv.
      rewrite Rmult_assoc, Rinv_l by lra. lra.
  Qed.

  (** [n] calls of [next]. *)
  Lemma sweeps_shape n : forall s, s_shape (sweeps n s) = s_shape s.
  Proof. induction n as [|n IH]; intros s; [reflexivity|]. cbn. rewrite IH. apply sweep_other. Qed.
  Lemma sweeps_chains n : forall s, s_chains (sweeps n s) = s_chains s.
  Proof. induction n as [|n IH]; intros s; [reflexivity|]. cbn. rewrite IH. apply sweep_other. Qed.

  Lemma gen_loop_is : forall n s, shaped s -> s_shape s = s_chains s ->
    gen_loop n s = (nexts n s, Ok (map (fun i => s_state (nexts (S i) s)) (seq 0 n))).
  Proof.
    induction n as [|n IH]; intros s Hs He; [reflexivity|]. cbn [LegSamp_Model.gen_loop].
    assert (Hs' := next_shaped s Hs).
    assert (E1 : s_shape (next s) = s_shape s) by apply sweeps_shape.
    assert (E2 : s_chains (next s) = s_chains s) by apply sweeps_chains.
    unfold assign_rows. rewrite (proj2 Hs'), E1, E2, He, Nat.eqb_refl.
    rewrite (IH (next s) Hs') by congruence. cbn [bind LegSamp_Model.nexts]. f_equal. f_equal.
    cbn [seq map]. f_equal. rewrite <- seq_shift, map_map. reflexivity.
  Qed.

  Lemma reset_chains b s : s_chains (reset b s) = s_chains s /\ s_shape (reset b s) = s_shape s /\ s_par (reset b s) = s_par s.
  Proof. unfold reset, LegSamp_Model.reset. destruct b; [destruct (k_random _ _)|]; repeat split. Qed.

  Lemma generate_main n b s : shaped s -> s_shape s = s_chains s ->
    snd (generate n b s) = Ok (map (fun i => s_state (nexts (S i) (reset b s))) (seq 0 n)).
  Proof.
    intros Hs He. unfold generate, LegSamp_Model.generate. destruct (reset_chains b s) as (E1 & E2 & _).
    rewrite gen_loop_is; [reflexivity|apply reset_shaped, Hs|congruence].
  Qed.

  (** Another number of chains. *)
  Lemma chains_main k n b s : (2 <= n)%Z -> s_shape s <> Z.to_nat n ->
    snd (generate (S k) b (fst (set_chains size n s))) = Err ValueError.
  Proof.
    intros Hn Hne. unfold set_chains. destruct (Z.ltb_spec n 0); [lia|]. cbn [fst].
    set (s0 := Smp _ _ _ _ _ _ _ _ _ _).
    assert (Hs : shaped s0) by (split; cbn; rewrite !repeat_length; reflexivity).
    unfold generate, LegSamp_Model.generate. cbn [LegSamp_Model.gen_loop].
    assert (Hs' := next_shaped _ (reset_shaped b _ Hs)). destruct (reset_chains b s0) as (E1 & E2 & _).
    assert (E3 : s_shape (next (reset b s0)) = s_shape s) by (rewrite <- (eq_refl : s_shape s0 = s_shape s), <- E2; apply sweeps_shape).
    assert (E4 : s_chains (next (reset b s0)) = Z.to_nat n) by (rewrite <- (eq_refl : s_chains s0 = Z.to_nat n), <- E1; apply sweeps_chains).
    destruct Hs' as [_ Hl]. unfold assign_rows. rewrite E3. rewrite E4 in Hl.
    destruct (Nat.eqb_spec (length (s_state (next (reset b s0)))) (s_shape s)) as [E|_]; [congruence|].
    destruct (s_state (next (reset b s0))) as [|x [|y l]]; cbn in Hl; try lia; reflexivity.
  Qed.
End Run.
