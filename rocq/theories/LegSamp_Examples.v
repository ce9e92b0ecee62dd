(** * Whole statements and examples for the legacy samplers *)
From Coq Require Import List ZArith Bool Reals Permutation Lra Lia.
From Verif Require Import Base BaseFacts Balance_Spec Balance_Proofs Rules_Model Rules_Spec Rules_Proofs LegSamp_Model LegSamp_Spec LegSamp_Proofs LegSamp_Run LegSamp_Pt LegSamp_Witness.
Import ListNotations.
Open Scope nat_scope.

Lemma ham_batch : forall conn xs rnd,
  length rnd = length xs -> Forall (fun x => 0 < length (conn x)) xs -> Forall (fun u => (0 <= u < 1)%R) rnd ->
  exists ys, leg_ham_transition conn xs rnd = Ok (ys, map (fun t => ham_corr conn (fst t) (snd t)) (combine xs ys)) /\
    ys = map (fun t => nth (floor_draw (snd t) (length (conn (fst t)))) (conn (fst t)) []) (combine xs rnd).
Proof. intros conn xs rnd H1 H2 H3. rewrite leg_ham_is. apply hamiltonian_transition_spec; assumption. Qed.

Lemma init_whole : forall Par Gen size logv k_move k_random, keeps_chains k_move k_random ->
  forall (p : Par) (g : Gen) n sw,
  ((exists s, init size logv k_random p g n sw = Ok s) <-> (0 <= n)%Z /\ (forall v, sw = Some v -> 0 <= v)%Z) /\
  forall s, init size logv k_random p g n sw = Ok s ->
    (length (s_lv s) = length (s_state s) /\ length (s_state s) = s_chains s) /\
    s_lv s = map (logv (s_par s)) (s_state s) /\ s_chains s = Z.to_nat n /\ s_shape s = Z.to_nat n /\ s_pow s = 2%R /\
    s_par s = p /\ (0 <= s_sweep s)%Z /\ s_acc s = 0%Z /\ s_tot s = 0%Z /\
    s_sweep s = match sw with Some v => v | None => Z.of_nat size end.
Proof.
  intros Par Gen size logv k_move k_random Hk p g n sw. split.
  - apply init_iff.
  - intros s. apply (init_ok size logv k_move k_random Hk).
Qed.

Lemma sweep_whole : forall Par Gen logv k_move k_random unif, keeps_chains k_move k_random ->
  forall s : smp Par Gen, s_lv s = map (logv (s_par s)) (s_state s) ->
  let '(g, prop) := k_move (s_gen s) (s_state s) in
  let us := draws unif (length (s_state s)) g in
  let s' := one_sweep logv k_move unif s in
  exists ds, length ds = length (s_state s) /\
    (forall i dx dy, i < length (s_state s) ->
       (nth i ds false = true <->
        (nth i us 0 < exp (s_pow s * (logv (s_par s) (fst (nth i prop dy)) - logv (s_par s) (nth i (s_state s) dx)
                                      + snd (nth i prop dy))))%R)) /\
    s_state s' = where_true ds (map fst prop) (s_state s) /\
    s_acc s' = (s_acc s + count_true ds)%Z /\
    s_lv s' = map (logv (s_par s')) (s_state s').
Proof. intros Par Gen logv k_move k_random unif Hk s H. exact (sweep_decisions logv k_move k_random unif Hk s H). Qed.

Lemma values_whole : forall Par Gen size logv k_move k_random unif, keeps_chains k_move k_random ->
  forall (p : Par) (g : Gen) n sw s ops, init size logv k_random p g n sw = Ok s ->
  let s' := run size logv k_move k_random unif ops s in
  (length (s_lv s') = length (s_state s') /\ length (s_state s') = s_chains s') /\
  (up_to_date true ops = true -> s_lv s' = map (logv (s_par s')) (s_state s')).
Proof.
  intros Par Gen size logv k_move k_random unif Hk p g n sw s ops Hi.
  destruct (init_ok size logv k_move k_random Hk p g n sw s Hi) as (H1 & H2 & _).
  apply (run_fresh size logv k_move k_random unif Hk ops true s H1). intros _. exact H2.
Qed.

Lemma fixed_whole : forall Par Gen logv k_move k_random unif, keeps_chains k_move k_random ->
  forall n b0 (s : ptm Par Gen),
  length (t_state s) = n -> length (t_prop s) = n -> length (t_beta s) = n -> length (t_acc s) = n ->
  Permutation b0 (t_beta s) -> t_pos s < n -> nth (t_pos s) (t_beta s) 0%R = 1%R ->
  t_lv s = map (logv (t_par s)) (t_state s) ->
  let s' := fixed_step logv k_move unif s in
  let '(g, prop) := k_move (t_gen s) (t_state s) in
  let us := draws unif n g in
  exists ds, length ds = n /\
    (forall i dx dy, i < n ->
       (nth i ds false = true <->
        (nth i us 0 < exp (t_pow s * nth i (t_beta s) 0 *
           (logv (t_par s) (fst (nth i prop dy)) - logv (t_par s) (nth i (t_state s) dx) + snd (nth i prop dy))))%R)) /\
    t_state s' = where_true ds (map fst prop) (t_state s) /\
    t_acc s' = where_true ds (map S (t_acc s)) (t_acc s) /\
    t_lv s' = map (logv (t_par s')) (t_state s').
Proof.
  intros Par Gen logv k_move k_random unif Hk n b0 s H1 H2 H3 H4 H5 H6 H7 H8.
  assert (Hi : tinv n b0 s).
  { repeat split; auto. rewrite H8, map_length. exact H1. }
  exact (fixed_decisions logv k_move k_random unif Hk n b0 s Hi H8).
Qed.

Lemma stats_whole : forall Par Gen logv k_move k_random unif rint2 b k (s : ptm Par Gen), 0 < k ->
  let s' := pt_sweeps logv k_move unif rint2 k (pt_reset logv k_random b s) in
  let ps := map t_pos (trace (fun s => exchange_step unif rint2 (fixed_step logv k_move unif s)) k (pt_reset logv k_random b s)) in
  t_mean s' = mean_of ps /\ t_m2 s' = sq_dev ps /\ t_steps s' = k.
Proof. intros. apply stats_reset. assumption. Qed.

(** ** Examples *)
Lemma local_case : let ls := [1%Z; (-1)%Z] in let space := [[1%Z]; [(-1)%Z]] in
  NoDup ls /\ 2 <= length ls /\ NoDup space /\ (forall x, In x space <-> local_cfg ls 1 x) /\
  forall psi p, exists a : cfg -> cfg -> R,
    forall x y, In x space -> In y space -> probability_of (leg_test psi p (fun _ _ => 0%R) x y) (a x y).
Proof.
  cbn zeta. split; [|split; [|split; [|split]]].
  - repeat constructor; cbn; intuition discriminate.
  - cbn. lia.
  - repeat constructor; cbn; intuition discriminate.
  - intros x. split.
    + intros [<-|[<-|[]]]; (split; [reflexivity|]); (apply Forall_cons; [cbn; auto|apply Forall_nil]).
    + intros [H1 H2]. destruct x as [|v [|]]; try discriminate. inversion H2 as [|? ? H3 _]; subst. cbn in *. intuition (subst; auto).
  - intros psi p. exists (fun x y => Rmin 1 (exp (p * (psi y - psi x + 0)))). intros x y _ _. apply prob_exists. left. apply exp_pos.
Qed.

Lemma exchange_case : let cs := [(0, 1)] in let space := [[1%Z; 2%Z]; [2%Z; 1%Z]] in
  NoDup space /\ cs <> [] /\ on_sites_nat 2 cs /\
  (forall x, In x space -> length x = 2 /\ forall y, Permutation x y -> In y space).
Proof.
  cbn zeta. split; [|split; [|split]].
  - repeat constructor; cbn; intuition discriminate.
  - discriminate.
  - apply Forall_cons; [cbn; lia|apply Forall_nil].
  - assert (P : forall (a b : Z) y, Permutation [a; b] y -> y = [a; b] \/ y = [b; a]).
    { intros a b y Hy. apply Permutation_length_2_inv. exact Hy. }
    intros x [<-|[<-|[]]]; (split; [reflexivity|]); intros y Hy; destruct (P _ _ _ Hy) as [->| ->]; cbn; auto.
Qed.
