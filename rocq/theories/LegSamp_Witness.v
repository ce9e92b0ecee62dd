(** * Proofs: exact sampling; concrete runs of the legacy samplers *)
From Coq Require Import List ZArith Bool Reals Permutation Lra Lia.
From Verif Require Import Base BaseFacts Balance_Spec Balance_Proofs Rules_Model Rules_Spec Rules_Proofs PT_Proofs LegSamp_Model LegSamp_Spec LegSamp_Proofs LegSamp_Run LegSamp_Pt LegSamp_Exch.
Import ListNotations.
Open Scope R_scope.

(** ** Exact sampler *)
Lemma sumR_rsum {A} (f : A -> R) l : sumR (map f l) = rsum f l.
Proof. induction l as [|x l IH]; [reflexivity|]. cbn. rewrite IH. reflexivity. Qed.

Lemma rsum_pos {A} (f : A -> R) l : (forall x, In x l -> 0 < f x) -> l <> [] -> 0 < rsum f l.
Proof.
  induction l as [|x l IH]; intros H Hne; [congruence|]. cbn. pose proof (H x (or_introl eq_refl)).
  destruct l as [|y l]; [cbn; lra|]. assert (0 < rsum f (y :: l)) by (apply IH; [intros z Hz; apply H; right; exact Hz|discriminate]). lra.
Qed.

Lemma rsum_div {A} (f : A -> R) c l : rsum (fun q => q) (map (fun x => f x / c) l) = rsum f l / c.
Proof. induction l as [|x l IH]; cbn; [unfold Rdiv; ring|]. rewrite IH. unfold Rdiv. ring. Qed.

Section Ex.
  Context {Par : Type}.
  Variable amps : Par -> list R.
  Lemma ex_reset_law (s : exs (Par := Par)) : amps (e_par s) <> [] -> Forall (fun a => 0 < a) (amps (e_par s)) ->
    exact_law (amps (e_par s)) (e_pow s) (ex_generate_dist (ex_reset amps s)).
  Proof.
    intros Hne Hp. unfold ex_generate_dist, ex_reset. cbn [e_prob]. rewrite sumR_rsum.
    set (l := amps (e_par s)) in *. set (S0 := rsum (fun a => Rpower a (e_pow s)) l).
    assert (HS : 0 < S0) by (apply rsum_pos; [intros; apply exp_pos|exact Hne]).
    split; [rewrite !map_length; reflexivity|]. split.
    - intros k Hk. rewrite map_map. 
      rewrite (nth_indep _ 0 ((fun x => Rpower x (e_pow s) / S0) 0)) by (rewrite map_length; exact Hk).
      rewrite (map_nth (fun x => Rpower x (e_pow s) / S0)). fold S0. field. lra.
    - rewrite map_map. clear Hp. assert (E : rsum (fun q => q) (map (fun x => Rpower x (e_pow s) / S0) l) = S0 / S0).
      { unfold S0 at 2. apply rsum_div. }
      rewrite E. field. lra.
  Qed.

  Lemma exact_law_unique a p q r : Forall (fun x => 0 < x) a -> a <> [] -> exact_law a p q -> exact_law a p r -> q = r.
  Proof.
    intros Hp Hne (L1 & H1 & _) (L2 & H2 & _). apply nth_ext with 0 0; [congruence|]. intros k Hk. rewrite L1 in Hk.
    assert (HS : 0 < rsum (fun x => Rpower x p) a) by (apply rsum_pos; [intros; apply exp_pos|exact Hne]).
    apply (Rmult_eq_reg_r (rsum (fun x => Rpower x p) a)); [|lra]. rewrite H1, H2 by assumption. reflexivity.
  Qed.
End Ex.

Lemma ex_main {Par} (amps : Par -> list R) p0 (s : exs (Par := Par)) pw :
  (forall p, amps p <> [] /\ Forall (fun a => 0 < a) (amps p)) ->
  exact_law (amps p0) 2 (ex_generate_dist (ex_init amps p0)) /\
  exact_law (amps (e_par s)) (e_pow s) (ex_generate_dist (ex_reset amps s)) /\
  exact_law (amps (e_par s)) pw (ex_generate_dist (ex_set_pow amps pw s)).
Proof.
  intros H. split; [|split].
  - apply (ex_reset_law amps (Exs p0 2 [])); apply H.
  - apply ex_reset_law; apply H.
  - apply (ex_reset_law amps (Exs (e_par s) pw (e_prob s))); apply H.
Qed.

Lemma ex_stale : exists (amps : bool -> list R) (s : exs (Par := bool)),
  (forall p, amps p <> [] /\ Forall (fun a => 0 < a) (amps p)) /\
  exact_law (amps (e_par s)) (e_pow s) (ex_generate_dist s) /\
  let s' := ex_set_par true s in
  ~ exact_law (amps (e_par s')) (e_pow s') (ex_generate_dist s').
Proof.
  exists (fun b : bool => if b then [1; 2] else [1; 1]), (ex_init (fun b : bool => if b then [1; 2] else [1; 1]) false).
  set (amps := fun b : bool => if b then [1; 2] else [1; 1]).
  assert (HA : forall p, amps p <> [] /\ Forall (fun a => 0 < a) (amps p)).
  { intros [|]; (split; [discriminate|]); repeat (apply Forall_cons; [lra|]); apply Forall_nil. }
  split; [exact HA|]. 
  assert (HL : exact_law (amps false) 2 (ex_generate_dist (ex_init amps false))) by (apply (ex_reset_law amps (Exs false 2 [])); apply HA).
  split; [exact HL|]. cbn zeta. intros (_ & H & _).
  pose proof (H 0%nat ltac:(cbn; lia)) as H0. pose proof (H 1%nat ltac:(cbn; lia)) as H1.
  unfold ex_generate_dist, ex_set_par, ex_init, ex_reset in H0, H1. cbn [e_prob e_par e_pow amps map nth sumR rsum] in H0, H1.
  assert (P1 : Rpower 1 2 = 1) by (unfold Rpower; rewrite ln_1, Rmult_0_r; apply exp_0).
  assert (P2 : Rpower 2 2 = 4) by (replace 2 with (INR 2) at 2 by (cbn; lra); rewrite Rpower_pow by lra; cbn; lra).
  unfold amps in *. cbn [map nth sumR rsum] in *. rewrite P1, P2 in *. lra.
Qed.

(** ** Hamiltonian kernel: the weight |psi|^2 itself is not invariant *)
Definition path_conn (x : cfg) : list cfg :=
  if cfg_eqd x [1%Z] then [[0%Z]; [2%Z]] else [[1%Z]].
Definition path_space : list cfg := [[0%Z]; [1%Z]; [2%Z]].

Lemma ham_refuted : exists conn space psi a,
  NoDup space /\
  (forall x, In x space -> conn x <> [] /\ forall y, In y (conn x) -> In y space) /\
  (forall x y, In x space -> In y space -> count_occ cfg_eqd (conn x) y = count_occ cfg_eqd (conn y) x) /\
  (forall x y, In x space -> In y space -> probability_of (leg_test psi 2 (ham_corr conn) x y) (a x y)) /\
  exists z, In z space /\
    pushes space (kernel cfg_eqd space (ham_T conn) a) 1 (weight psi 2) z <> weight psi 2 z.
Proof.
  set (psi := fun _ : cfg => 0).
  set (a := fun x y => Rmin 1 (exp (2 * (psi y - psi x + ham_corr path_conn x y)))).
  exists path_conn, path_space, psi, a. split; [|split; [|split; [|split]]].
  - repeat constructor; cbn; intuition discriminate.
  - intros x [<-|[<-|[<-|[]]]]; (split; [discriminate|]); intros y Hy; cbn in Hy |- *; intuition.
  - intros x y [<-|[<-|[<-|[]]]] [<-|[<-|[<-|[]]]]; reflexivity.
  - intros x y _ _. apply prob_exists. left. apply exp_pos.
  - exists [1%Z]. split; [cbn; auto|].
    assert (E1 : a [0%Z] [1%Z] = 1 / 4 /\ a [2%Z] [1%Z] = 1 / 4).
    { unfold a, psi, ham_corr, n_of. cbn [path_conn]. 
      change (length (path_conn [0%Z])) with 1%nat. change (length (path_conn [2%Z])) with 1%nat.
      change (length (path_conn [1%Z])) with 2%nat. change (INR 1) with 1. replace (INR 2) with 2 by (cbn; lra). rewrite ln_1.
      assert (E : exp (2 * (0 - 0 + (0 - ln 2))) = 1 / 4).
      { replace (2 * (0 - 0 + (0 - ln 2))) with (- (ln 2 + ln 2)) by ring.
        rewrite exp_Ropp, exp_plus, !exp_ln by lra. field. }
      rewrite E. unfold Rmin. destruct (Rle_dec 1 (1 / 4)); lra. }
    assert (E2 : a [1%Z] [0%Z] = 1 /\ a [1%Z] [2%Z] = 1).
    { unfold a, psi, ham_corr, n_of.
      change (length (path_conn [0%Z])) with 1%nat. change (length (path_conn [2%Z])) with 1%nat.
      change (length (path_conn [1%Z])) with 2%nat. change (INR 1) with 1. replace (INR 2) with 2 by (cbn; lra). rewrite ln_1.
      assert (E : exp (2 * (0 - 0 + (ln 2 - 0))) = 4).
      { replace (2 * (0 - 0 + (ln 2 - 0))) with (ln 2 + ln 2) by ring. rewrite exp_plus, !exp_ln by lra. ring. }
      rewrite E. unfold Rmin. destruct (Rle_dec 1 4); lra. }
    assert (W : forall x, weight psi 2 x = 1) by (intros x; rewrite weight_exp; unfold psi; rewrite Rmult_0_r; apply exp_0).
    cbn [pushes]. unfold push, path_space. cbn [rsum]. rewrite !W. unfold kernel. cbn [rsum].
    assert (T01 : ham_T path_conn [0%Z] [1%Z] = 1) by (unfold ham_T, uniform_prob; cbn; field).
    assert (T21 : ham_T path_conn [2%Z] [1%Z] = 1) by (unfold ham_T, uniform_prob; cbn; field).
    assert (T10 : ham_T path_conn [1%Z] [0%Z] = 1 / 2) by (unfold ham_T, uniform_prob; cbn; field).
    assert (T12 : ham_T path_conn [1%Z] [2%Z] = 1 / 2) by (unfold ham_T, uniform_prob; cbn; field).
    assert (T00 : ham_T path_conn [0%Z] [0%Z] = 0) by (unfold ham_T, uniform_prob; cbn; field).
    assert (T02 : ham_T path_conn [0%Z] [2%Z] = 0) by (unfold ham_T, uniform_prob; cbn; field).
    assert (T20 : ham_T path_conn [2%Z] [0%Z] = 0) by (unfold ham_T, uniform_prob; cbn; field).
    assert (T22 : ham_T path_conn [2%Z] [2%Z] = 0) by (unfold ham_T, uniform_prob; cbn; field).
    assert (T11 : ham_T path_conn [1%Z] [1%Z] = 0) by (unfold ham_T, uniform_prob; cbn; field).
    rewrite T01, T21, T10, T12, T00, T02, T20, T22, T11.
    destruct E1 as [-> ->]. destruct E2 as [-> ->].
    repeat match goal with |- context [cfg_eqd ?u ?v] =>
      let b := eval vm_compute in (if cfg_eqd u v then true else false) in
      match b with
      | true => destruct (cfg_eqd u v) as [_|H]; [|exfalso; apply H; reflexivity]
      | false => destruct (cfg_eqd u v) as [H|_]; [discriminate H|]
      end
    end. lra.
Qed.

(** ** A sampler on one site *)
Open Scope nat_scope.
Definition to_one (g : nat) (xs : list cfg) : nat * list (cfg * R) := (g, map (fun _ => ([1%Z], 0%R)) xs).
Definition at_zero (g n : nat) : nat * list cfg := (g, repeat [0%Z] n).
Definition half (g : nat) : nat * R := (S g, (/ 2)%R).
Definition two_models (b : bool) (x : cfg) : R := if b then 0%R else if cfg_eqd x [0%Z] then 1%R else 0%R.

Lemma one_site_keeps : keeps_chains to_one at_zero.
Proof. split; intros; [apply map_length|apply repeat_length]. Qed.

Lemma exp_m2 : (exp (-2) < / 2)%R.
Proof.
  assert (H : (2 < exp 2)%R) by (pose proof (exp_ineq1 2 ltac:(lra)); lra).
  replace (-2)%R with (- (2))%R by ring. rewrite exp_Ropp. apply Rinv_lt_contravar; [|exact H].
  pose proof (exp_pos 2). lra.
Qed.

Lemma stale_values : exists (s : smp bool nat),
  init 1 two_models at_zero false 0 1 (Some 1%Z) = Ok s /\
  let s' := run 1 two_models to_one at_zero half [SetPar true] s in
  let '(g, prop) := to_one (s_gen s') (s_state s') in
  (forall i, i < length (s_state s') ->
     (nth i (draws half 1 g) 0 <
      exp (s_pow s' * (two_models (s_par s') (fst (nth i prop ([], 0))) - two_models (s_par s') (nth i (s_state s') [])
                       + snd (nth i prop ([], 0)))))%R) /\
  s_state (next two_models to_one half s') = s_state s' /\ map fst prop <> s_state s'.
Proof.
  eexists. split; [reflexivity|]. change (Pos.to_nat 1) with 1. cbn. change (Pos.to_nat 1) with 1. cbn. split; [|split; [|discriminate]].
  - intros i Hi. assert (i = 0) by lia. subst i. cbn.
    match goal with |- (_ < exp ?u)%R => replace u with 0%R by ring end. rewrite exp_0. lra.
  - unfold next. cbn. change (Pos.to_nat 1) with 1. cbn. unfold one_sweep. cbn. unfold acc_prob, two_models.
    destruct (cfg_eqd [0%Z] [0%Z]) as [_|H]; [|congruence].
    match goal with |- context [Rlt_dec ?a ?b] => destruct (Rlt_dec a b) as [H|H] end; [|reflexivity].
    exfalso. match type of H with (_ < exp ?u)%R => replace u with (-2)%R in H by ring end. pose proof exp_m2. lra.
Qed.

(** ** The list of samples *)
Definition count_up (g : nat) (xs : list cfg) : nat * list (cfg * R) := (g, map (fun x => ([(nth 0 x 0 + 1)%Z], 0%R)) xs).
Definition flat (b : unit) (x : cfg) : R := 0%R.

Lemma always_in : forall u v : R, (exp (2 * (0 - 0 + 0)) = 1)%R.
Proof. intros _ _. replace (2 * (0 - 0 + 0))%R with 0%R by ring. apply exp_0. Qed.

Lemma samples_alias : exists (s : smp unit nat),
  init 1 flat at_zero tt 0 1 (Some 1%Z) = Ok s /\
  snd (generate flat count_up at_zero half 2 true s) = Ok [[[1%Z]]; [[2%Z]]] /\
  snd (samples_list flat count_up at_zero half 2 true s) = [[[2%Z]]; [[2%Z]]].
Proof.
  set (mk := fun g x acc tot => Smp tt g [[x]] [0%R] 1 2%R acc tot 1 1 : smp unit nat).
  assert (E : forall g x acc tot, next flat count_up half (mk g x acc tot) = mk (S g) (x + 1)%Z (acc + 1)%Z (tot + 1)%Z).
  { intros g x acc tot. unfold next. change (Z.to_nat (s_sweep (mk g x acc tot))) with 1. cbn [sweeps].
    assert (W : one_sweep flat count_up half (mk g x acc tot) = mk (S g) (x + 1)%Z (acc + 1)%Z tot).
    { unfold one_sweep, mk. cbn. unfold acc_prob, flat. rewrite (always_in 0 0).
      destruct (Rlt_dec (/ 2) 1) as [H|H]; [reflexivity|lra]. }
    rewrite W. reflexivity. }
  exists (mk 0 0%Z 0%Z 0%Z). split; [reflexivity|].
  assert (E0 : reset flat at_zero true (mk 0 0%Z 0%Z 0%Z) = mk 0 0%Z 0%Z 0%Z) by reflexivity.
  split.
  - unfold generate. rewrite E0. cbn [gen_loop]. rewrite E. cbn [gen_loop]. rewrite E. reflexivity.
  - unfold samples_list. rewrite E0. cbn [nexts]. rewrite !E. reflexivity.
Qed.

(** ** Negative sweep sizes, other numbers of chains *)
Section Sweep.
  Context {Par Gen : Type}.
  Variable size : nat.
  Variable logv : Par -> cfg -> R.
  Variable k_move : Gen -> list cfg -> Gen * list (cfg * R).
  Variable unif : Gen -> Gen * R.

  Lemma neg_sweep v (s : smp Par Gen) : (v < 0)%Z ->
    snd (set_sweep size (Some v) s) = Err ValueError /\
    let s' := next logv k_move unif (fst (set_sweep size (Some v) s)) in
    s_state s' = s_state s /\ s_gen s' = s_gen s /\ s_tot s' = (s_tot s + v * Z.of_nat (s_chains s))%Z.
  Proof.
    intros H. unfold set_sweep. cbn [fst snd]. destruct (Z.ltb_spec v 0) as [_|H2]; [|lia]. split; [reflexivity|].
    unfold next. cbn [s_sweep]. replace (Z.to_nat v) with 0 by lia. cbn. repeat split.
  Qed.

  Lemma chains_zero ls n (s : smp Par Gen) x : 0 < size -> ~ In 0%Z ls -> (0 <= n)%Z ->
    In x (s_state (fst (set_chains size n s))) -> ~ local_cfg ls size x.
  Proof.
    intros Hs Hls Hn Hin [_ HF]. unfold set_chains in Hin. destruct (Z.ltb_spec n 0); [lia|]. cbn in Hin.
    apply repeat_spec in Hin. subst x. destruct size as [|m]; [lia|]. cbn in HF. inversion HF. contradiction.
  Qed.
End Sweep.

(** ** Local random states *)
Lemma local_random ls rs : Forall (fun r => r < length ls) rs ->
  local_cfg ls (length rs) (leg_local_random (leg_local_states ls) rs).
Proof.
  intros Hr. split; [apply map_length|]. apply Forall_forall. intros v Hv. apply in_map_iff in Hv.
  destruct Hv as (r & <- & Hin). rewrite Forall_forall in Hr. specialize (Hr r Hin).
  apply np_sort_in, nth_In. unfold leg_local_states. rewrite np_sort_length. exact Hr.
Qed.

(** ** Replica exchange with an odd number of replicas *)
Definition nine_tenths (g : nat) : nat * R := (S g, (9 / 10)%R).
Definition from_zero (g : nat) : nat * bool := (g, false).
Definition ones (p : unit) (x : cfg) : R := 1%R.

Lemma odd_step (b0 b1 b2 : R) junk : length junk = 3 -> (b0 = 1 /\ b1 = 2 / 3 /\ b2 = 1 / 3)%R ->
  forall s : ptm unit nat, t_beta s = [b0; b1; b2] -> t_lv s = [1; 1; 1]%R -> t_pow s = 2%R -> t_prop s = junk ->
  nth 1 (t_beta (exchange_step nine_tenths from_zero s)) 0%R = b1.
Proof.
  intros Hj (-> & -> & ->) s Hb Hl Hp Hjk. unfold exchange_step. rewrite Hb, Hl, Hp, Hjk. cbn [from_zero].
  destruct junk as [|j0 [|j1 [|j2 [|]]]]; try discriminate Hj. clear Hj Hjk.
  change (length [1%R; (2/3)%R; (1/3)%R]) with 3.
  change (swap_range 3 0) with [0; 2].
  set (prop := propose 3 0 _ _).
  assert (Ep : prop = [1/3; 1; 1]%R) by reflexivity. rewrite Ep. clear prop Ep.
  unfold exch_prob. cbn [length seq map nth]. cbn [fold_left].
  set (x0 := Xst _ _ _ _ _). 
  assert (F : x_beta (swap_pair nine_tenths 3 x0 0) = [1; 2/3; 1/3]%R).
  { unfold swap_pair, x0. cbn [x_prob x_gen x_beta x_acc x_pos nine_tenths]. change ((0 + 1) mod 3) with 1. cbn [nth upd].
    match goal with |- context [Rlt_dec ?a ?b] => destruct (Rlt_dec a b) as [H|H] end; [|reflexivity].
    exfalso. rewrite <- exp_plus in H.
    match type of H with (_ < exp ?u)%R => replace u with (- (2 / 3))%R in H by field end.
    rewrite exp_Ropp in H. pose proof (exp_ineq1 (2/3) ltac:(lra)) as E.
    assert (/ exp (2 / 3) < / (5 / 3))%R by (apply Rinv_lt_contravar; lra). lra. }
  revert F. generalize (swap_pair nine_tenths 3 x0 0). intros x F. clear x0.
  unfold swap_pair, position_stats. destruct (nine_tenths (x_gen x)) as [g u]. change ((2 + 1) mod 3) with 0.
  match goal with |- context [Rlt_dec ?a ?b] => destruct (Rlt_dec a b) as [H|H] end; cbn [t_beta x_beta]; rewrite F; reflexivity.
Qed.

Lemma odd_replicas : exists s : ptm unit nat,
  pt_init 1 ones at_zero [0; 0; 0]%R tt 0 3 (Some 1) = Ok s /\
  let s' := exchange_step nine_tenths from_zero s in
  (forall beta', exchanged 0 1 (t_beta s) beta' ->
     (nth 0 (draws nine_tenths 1 (fst (from_zero (t_gen s)))) 0 <
      joint (t_pow s) (t_lv s) beta' / joint (t_pow s) (t_lv s) (t_beta s))%R) /\
  nth 1 (t_beta s') 0%R = nth 1 (t_beta s) 0%R /\ nth 1 (t_beta s) 0%R <> nth 0 (t_beta s) 0%R.
Proof.
  eexists. split; [reflexivity|]. cbn zeta.
  match goal with |- (forall beta', exchanged 0 1 (t_beta ?s0) beta' -> _) /\ _ => set (s := s0) end.
  assert (Hb : t_beta s = [1 - 0 / (1 + 1 + 1); 1 - 1 / (1 + 1 + 1); 1 - (1 + 1) / (1 + 1 + 1)]%R) by reflexivity.
  assert (Hl : t_lv s = [1; 1; 1]%R) by reflexivity.
  assert (Hp : t_pow s = 2%R) by reflexivity.
  split; [|split].
  - intros beta' H. rewrite (joint_ratio (t_pow s) (t_lv s) (t_beta s) beta' 0 1) by (rewrite ?Hb; cbn; auto; lia).
    rewrite Hl. cbn [nth draws nine_tenths from_zero fst].
    match goal with |- (_ < exp ?u)%R => replace u with 0%R by ring end. rewrite exp_0. lra.
  - rewrite Hb. cbn [nth]. refine (odd_step _ _ _ [0; 0; 0]%R eq_refl _ s Hb Hl Hp eq_refl).
    repeat split; field.
  - rewrite Hb. cbn. lra.
Qed.

(** ** Changing the number of replicas *)
Section Replicas.
  Context {Par Gen : Type}.
  Variable size : nat.
  Variable logv : Par -> cfg -> R.
  Variable k_move : Gen -> list cfg -> Gen * list (cfg * R).
  Variable k_random : Gen -> nat -> Gen * list cfg.
  Variable unif : Gen -> Gen * R.
  Variable rint2 : Gen -> Gen * bool.
  Hypothesis Hk : keeps_chains k_move k_random.

  Lemma fb_loop_short pow : forall rows props g, length (snd (fb_loop unif pow g rows props)) <= length rows.
  Proof.
    induction rows as [|[[[x l] b] n] rows IH]; intros [|[[y l1] c] props] g; cbn; try lia.
    destruct (unif g) as [g1 u]. specialize (IH props g1). destruct (fb_loop unif pow g1 rows props). cbn in *. lia.
  Qed.

  Lemma lost_fold n pos : n <= pos -> forall L x, (forall i, In i L -> i < n) -> x_pos x = pos ->
    x_pos (fold_left (swap_pair unif n) L x) = pos.
  Proof.
    intros Hp. induction L as [|i L IH]; intros x HL Hx; [exact Hx|]. cbn [fold_left]. apply IH; [intros j Hj; apply HL; right; exact Hj|].
    assert (Hi : i < n) by (apply HL; left; reflexivity).
    assert (Hj : (i + 1) mod n < n) by (apply Nat.mod_upper_bound; lia).
    unfold swap_pair. destruct (unif (x_gen x)) as [g u].
    match goal with |- context [Rlt_dec ?a ?b] => destruct (Rlt_dec a b) end; cbn [x_pos]; rewrite ?Hx; [|reflexivity].
    destruct (Nat.eqb_spec pos i); [lia|]. destruct (Nat.eqb_spec pos ((i + 1) mod n)); [lia|reflexivity].
  Qed.

  Lemma fold_blen n : forall L x, length (x_beta (fold_left (swap_pair unif n) L x)) = length (x_beta x).
  Proof.
    induction L as [|i L IH]; intros x; [reflexivity|]. cbn [fold_left]. rewrite IH. unfold swap_pair.
    destruct (unif (x_gen x)) as [g u]. match goal with |- context [Rlt_dec ?a ?b] => destruct (Rlt_dec a b) end; cbn [x_beta]; [|reflexivity].
    apply swap2_length.
  Qed.

  Lemma lost_sweeps : forall k (s : ptm Par Gen), length (t_beta s) <= t_pos s -> length (t_state s) <= t_pos s ->
    let s' := pt_sweeps logv k_move unif rint2 k s in t_pos s' = t_pos s /\ length (t_state s') <= t_pos s.
  Proof.
    induction k as [|k IH]; intros s H1 H2; [split; [reflexivity|exact H2]|]. cbn [pt_sweeps]. cbn zeta.
    set (s1 := fixed_step logv k_move unif s). set (s2 := exchange_step unif rint2 s1).
    assert (F : t_beta s1 = t_beta s /\ t_pos s1 = t_pos s /\ length (t_state s1) <= length (t_state s)).
    { unfold s1, fixed_step. destruct (k_move (t_gen s) (t_state s)) as [g prop].
      match goal with |- context [fb_loop unif ?p ?g ?r ?q] => pose proof (fb_loop_short p r q g) as E; destruct (fb_loop unif p g r q) as [g2 rows] end.
      cbn [t_beta t_pos t_state snd] in *. rewrite map_length. rewrite !combine_length in E. repeat split; lia. }
    destruct F as (F1 & F2 & F3).
    assert (G : t_pos s2 = t_pos s1 /\ t_state s2 = t_state s1 /\ length (t_beta s2) = length (t_beta s1)).
    { unfold s2, exchange_step. destruct (rint2 (t_gen s1)) as [g o]. unfold position_stats. cbn [t_pos t_state t_beta].
      split; [|split; [reflexivity|apply fold_blen]].
      apply (lost_fold (length (t_beta s1))); [rewrite F1, F2; exact H1| |reflexivity].
      intros i Hi. apply (range_lt _ (if o then 1 else 0)); [destruct o; lia|exact Hi]. }
    destruct G as (G1 & G2 & G3).
    destruct (IH s2) as [I1 I2].
    - rewrite G3, G1, F1, F2. exact H1.
    - rewrite G2, G1, F2. lia.
    - rewrite G1, F2 in I1, I2. split; assumption.
  Qed.

  Lemma replicas_main junk n b (s : ptm Par Gen) : (1 <= n)%Z ->
    let s' := pt_reset logv k_random b (fst (set_replicas size junk n s)) in
    snd (set_replicas size junk n s) = Ok tt /\
    (Z.to_nat n <= t_pos s -> snd (pt_next logv k_move unif rint2 s') = Err IndexError) /\
    (0 < t_pos s < Z.to_nat n -> (nth (t_pos s') (t_beta s') 0 < 1)%R).
  Proof.
    intros Hn. cbn zeta. unfold set_replicas. destruct (Z.ltb_spec n 1) as [|_]; [lia|]. cbn [fst snd].
    set (s0 := Ptm _ _ _ _ _ _ _ _ _ _ _ _ _ _ _).
    assert (E : t_beta (pt_reset logv k_random b s0) = leg_betas (Z.to_nat n) /\
                t_pos (pt_reset logv k_random b s0) = t_pos s /\
                length (t_state (pt_reset logv k_random b s0)) = Z.to_nat n).
    { unfold pt_reset. destruct b.
      - pose proof (proj2 Hk (t_gen s0) (length (t_state s0))) as E. destruct (k_random _ _) as [g st]. cbn in *.
        rewrite repeat_length in E. repeat split; assumption.
      - cbn. rewrite repeat_length. repeat split. }
    destruct E as (E1 & E2 & E3). split; [reflexivity|]. split.
    - intros Hp. destruct (lost_sweeps (t_sweep (pt_reset logv k_random b s0)) (pt_reset logv k_random b s0)) as [L1 L2].
      + rewrite E1, E2. unfold leg_betas. rewrite map_length, seq_length. exact Hp.
      + rewrite E2, E3. exact Hp.
      + unfold pt_next. cbn [snd t_pos t_state]. cbn zeta in L1, L2. rewrite L1.
        destruct (nth_error _ _) eqn:E; [|reflexivity]. exfalso.
        assert (Hs := proj1 (nth_error_Some _ _) ltac:(rewrite E; discriminate)). lia.
    - intros Hp. rewrite E1, E2. rewrite betas_nth by lia.
      assert (0 < INR (t_pos s))%R by (apply lt_0_INR; lia).
      assert (0 < INR (Z.to_nat n))%R by (apply lt_0_INR; lia).
      assert (0 < INR (t_pos s) / INR (Z.to_nat n))%R by (apply Rdiv_lt_0_compat; assumption). lra.
  Qed.
End Replicas.

(** A history of two replicas after which the cold one is replica 1. *)
Definition zero_draw (g : nat) : nat * R := (S g, 0%R).
Lemma moved : exists s : ptm unit nat,
  pt_init 1 ones at_zero [0; 0]%R tt 0 2 (Some 1) = Ok s /\
  t_pos (pt_run ones to_one at_zero zero_draw from_zero [PtNext] s) = 1.
Proof.
  eexists. split; [reflexivity|].
  unfold pt_run. cbn [fold_left pt_apply]. unfold pt_next. cbn [fst t_pos].
  match goal with |- context [pt_sweeps _ _ _ _ ?k ?s0] => change k with 1; set (s := s0) end. cbn [pt_sweeps].
  assert (E : exists s1 : ptm unit nat, fixed_step ones to_one zero_draw s = s1 /\ length (t_beta s1) = 2 /\ t_pos s1 = 0).
  { eexists. split; [reflexivity|]. split; [|].
    - unfold fixed_step. destruct (to_one _ _). destruct (fb_loop _ _ _ _ _). reflexivity.
    - unfold fixed_step. destruct (to_one _ _). destruct (fb_loop _ _ _ _ _). reflexivity. }
  destruct E as (s1 & -> & E1 & E2). unfold exchange_step. cbn [from_zero]. rewrite E1, E2.
  change (swap_range 2 0) with [0]. cbn [fold_left]. unfold position_stats. cbn [t_pos].
  unfold swap_pair. cbn [x_gen zero_draw x_prob x_pos]. change ((0 + 1) mod 2) with 1.
  unfold exch_prob. rewrite E1. cbn [seq map upd nth].
  match goal with |- context [Rlt_dec ?a ?b] => destruct (Rlt_dec a b) as [H|H] end; [reflexivity|].
  exfalso. apply H. apply Rmult_lt_0_compat; apply exp_pos.
Qed.
