From Coq Require Import List Arith Bool Reals Lra Lia.
From Verif Require Import Base Masked_Model Masked_Spec Masked_Proofs Symm_Proofs ToArray_Model ToArray_Spec.
Import ListNotations.
Open Scope nat_scope.

(** ** numbers *)
Lemma ceil_bounds a b : 0 < b -> a <= ceil_nat a b * b /\ ceil_nat a b * b < a + b.
Proof.
  intros H. unfold ceil_nat. pose proof (Nat.div_mod (a + b - 1) b). pose proof (Nat.mod_upper_bound (a + b - 1) b).
  lia.
Qed.
Lemma padded_div n m : 0 < m -> padded n m / m = ceil_nat n m.
Proof. intros H. unfold padded. apply Nat.div_mul. lia. Qed.

Lemma reshape_shaped' {A} a b (l : list A) : length l = a * b -> shaped a b (reshape a b l).
Proof.
  intros H. split; [apply reshape_length|]. revert l H.
  induction a as [|a IH]; intros l H; cbn [reshape]; constructor.
  - rewrite firstn_length. cbn in H. lia.
  - apply IH. rewrite skipn_length. cbn in H. lia.
Qed.
Lemma concat_reshape' {A} a b (l : list A) : length l = a * b -> concat (reshape a b l) = l.
Proof.
  revert l. induction a as [|a IH]; intros l H; cbn [reshape concat].
  - destruct l; [reflexivity|discriminate].
  - rewrite IH; [apply firstn_skipn|]. rewrite skipn_length. cbn in H. lia.
Qed.

Definition numbers (n m : nat) : list nat := seq 0 n ++ seq 0 (padded n m - n).
Lemma numbers_length n m : 0 < m -> length (numbers n m) = m * ceil_nat n m.
Proof.
  intros H. unfold numbers. rewrite app_length, !seq_length. unfold padded.
  pose proof (ceil_bounds n m H). lia.
Qed.
Lemma ranks_shaped n m : 0 < m -> shaped m (ceil_nat n m) (states_per_rank n m).
Proof. intros H. unfold states_per_rank. rewrite padded_div by exact H. apply reshape_shaped', numbers_length, H. Qed.
Lemma ranks_concat n m : 0 < m -> concat (states_per_rank n m) = numbers n m.
Proof. intros H. unfold states_per_rank. rewrite padded_div by exact H. apply concat_reshape', numbers_length, H. Qed.

Lemma error_iff n m : 0 < n -> 0 < m ->
  existsb (fun i => n <=? i) (concat (states_per_rank n m)) = true <-> 2 * n < m.
Proof.
  intros Hn Hm. rewrite ranks_concat by exact Hm. rewrite existsb_exists. pose proof (ceil_bounds n m Hm) as [B1 B2].
  assert (CE : n < m -> ceil_nat n m = 1).
  { intros G. unfold ceil_nat. replace (n + m - 1) with (1 * m + (n - 1)) by lia.
    rewrite Nat.div_add_l by lia. rewrite Nat.div_small by lia. lia. }
  unfold numbers, padded. split.
  - intros [i [Hi L]]. apply Nat.leb_le in L. apply in_app_or in Hi.
    destruct Hi as [Hi|Hi]; apply in_seq in Hi; [lia|].
    destruct (Nat.le_gt_cases m n) as [Le|Gt]; [lia|]. rewrite (CE Gt) in *. lia.
  - intros H. rewrite CE by lia. exists n. split; [|now apply Nat.leb_le]. apply in_or_app. right. apply in_seq. lia.
Qed.

(** ** dropping the fake states *)
Lemma on_last_map_length {A} (f : A -> A) l : length (on_last f l) = length l.
Proof. induction l as [|x l IH]; [reflexivity|]. destruct l; cbn in *; auto. Qed.

Lemma concat_on_last w nf l : Forall (fun r => length r = w) l -> l <> [] ->
  concat (on_last (drop_fake nf) l)
  = firstn (length (concat l) - Nat.min nf w) (concat l) ++ repeat None (Nat.min nf w).
Proof.
  induction l as [|x l IH]; intros F N; [congruence|]. apply Forall_cons_iff in F. destruct F as [Fx F].
  destruct l as [|y l].
  - cbn [on_last concat]. rewrite !app_nil_r. unfold drop_fake. rewrite Fx. f_equal. f_equal. lia.
  - change (on_last (drop_fake nf) (x :: y :: l)) with (x :: on_last (drop_fake nf) (y :: l)).
    change (concat (x :: ?t)) with (x ++ concat t).
    change (concat (x :: y :: l)) with (x ++ concat (y :: l)).
    rewrite IH by (assumption || discriminate).
    assert (L : w <= length (concat (y :: l))).
    { cbn [concat]. rewrite app_length. apply Forall_cons_iff in F. lia. }
    rewrite app_length, firstn_app, Fx.
    rewrite (firstn_all2 (n := w + length (concat (y :: l)) - Nat.min nf w) x) by lia.
    rewrite app_assoc. do 3 f_equal. lia.
Qed.

Definition kept (n m : nat) : nat := m * ceil_nat n m - Nat.min (padded n m - n) (ceil_nat n m).
Lemma kept_ge n m : 0 < m -> n <= kept n m /\ kept n m <= m * ceil_nat n m.
Proof. intros H. unfold kept, padded. pose proof (ceil_bounds n m H). nia. Qed.
Lemma kept_eq n m : 0 < m -> (kept n m = n <-> one_padded_rank n m).
Proof.
  intros H. unfold kept, padded, one_padded_rank. pose proof (ceil_bounds n m H). 
  set (c := ceil_nat n m) in *. replace (c * (m - 1)) with (c * m - c) by nia. lia.
Qed.

Definition logs_of (log_psi : nat -> R * R) (ranks : list (list nat)) (n : nat) :=
  let n_fake := length (hd [] ranks) * length ranks - n in
  let logs := map (map (fun i => Some (log_psi i))) ranks in
  if 0 <? n_fake then on_last (drop_fake n_fake) logs else logs.

Lemma logs_concat log_psi n m : 0 < m ->
  concat (logs_of log_psi (states_per_rank n m) n)
  = map (fun i => Some (log_psi i)) (firstn (kept n m) (numbers n m)) ++ repeat None (m * ceil_nat n m - kept n m).
Proof.
  intros H. destruct (ranks_shaped n m H) as [Lr Fr]. set (ranks := states_per_rank n m) in *.
  assert (Hw : length (hd [] ranks) = ceil_nat n m).
  { destruct ranks as [|r l]; [cbn in Lr; lia|]. apply Forall_cons_iff in Fr. apply Fr. }
  unfold logs_of. rewrite Hw, Lr.
  assert (Cc : concat (map (map (fun i => Some (log_psi i))) ranks) = map (fun i => Some (log_psi i)) (numbers n m)).
  { rewrite <- concat_map. f_equal. apply ranks_concat, H. }
  pose proof (numbers_length n m H) as Ln. pose proof (kept_ge n m H) as [K1 K2].
  replace (ceil_nat n m * m - n) with (padded n m - n) by reflexivity.
  destruct (Nat.ltb_spec 0 (padded n m - n)) as [P|P].
  - rewrite (concat_on_last (ceil_nat n m)).
    + rewrite Cc, map_length, Ln, firstn_map.
      fold (kept n m). f_equal. f_equal. assert (ceil_nat n m <= m * ceil_nat n m) by nia. unfold kept in *. lia.
    + apply Forall_forall. intros r Hr. apply in_map_iff in Hr. destruct Hr as [r' [<- Hr]].
      rewrite map_length. rewrite Forall_forall in Fr. auto.
    + destruct ranks; [cbn in Lr; lia|discriminate].
  - rewrite Cc. assert (E : kept n m = m * ceil_nat n m) by (unfold kept; lia).
    rewrite E, Nat.sub_diag, app_nil_r. rewrite firstn_all2 by lia. reflexivity.
Qed.

(** ** exact arithmetic *)
Open Scope R_scope.
Lemma cnorm2_cexp z : cnorm2 (cexp z) = exp (fst z) * exp (fst z).
Proof.
  unfold cnorm2, cexp. cbn [fst snd]. pose proof (sin2_cos2 (snd z)) as E. unfold Rsqr in E.
  replace (exp (fst z) * cos (snd z) * (exp (fst z) * cos (snd z)) + exp (fst z) * sin (snd z) * (exp (fst z) * sin (snd z)))
    with (exp (fst z) * exp (fst z) * (sin (snd z) * sin (snd z) + cos (snd z) * cos (snd z))) by ring.
  rewrite E. ring.
Qed.
Lemma rsum_cons x l : rsum (x :: l) = x + rsum l.
Proof. reflexivity. Qed.
Lemma rsum_nil : rsum [] = 0.
Proof. reflexivity. Qed.
Lemma rsum_app a b : rsum (a ++ b) = rsum a + rsum b.
Proof. induction a; cbn [app]; rewrite ?rsum_cons, ?rsum_nil; [lra|]. rewrite IHa. lra. Qed.
Lemma rsum_nonneg l : Forall (fun x => 0 <= x) l -> 0 <= rsum l.
Proof. induction 1; rewrite ?rsum_cons, ?rsum_nil; lra. Qed.
Lemma rsum_scal c l : rsum (map (fun x => c * x) l) = c * rsum l.
Proof. induction l; cbn [map]; rewrite ?rsum_cons, ?rsum_nil; [lra|]. rewrite IHl. lra. Qed.
Lemma cnorm2_nonneg z : 0 <= cnorm2 z.
Proof. unfold cnorm2. nra. Qed.
Lemma rsum_concat psi : rsum (map (fun p => sqrt (rsum (map cnorm2 p)) ^ 2) psi) = rsum (map cnorm2 (concat psi)).
Proof.
  induction psi as [|p psi IH]; [reflexivity|]. cbn [map concat]. rewrite map_app, rsum_app, <- IH.
  rewrite rsum_cons. f_equal. rewrite <- Rsqr_pow2. apply Rsqr_sqrt. apply rsum_nonneg.
  apply Forall_forall. intros x Hx. apply in_map_iff in Hx. destruct Hx as [z [<- _]]. apply cnorm2_nonneg.
Qed.
Lemma norm_squared_rsum psi : norm_squared psi = rsum (map cnorm2 psi).
Proof. induction psi as [|z psi IH]; [reflexivity|]. cbn in *. unfold norm_squared in IH. rewrite IH. reflexivity. Qed.

Definition shift (m : R) (z : option (R * R)) := option_map (fun z => (fst z - m, snd z)) z.
Lemma shift_0 z : shift 0 z = z.
Proof. destruct z as [[a b]|]; [|reflexivity]. cbn. do 2 f_equal. lra. Qed.
Lemma cexp_shift m z : cexp_opt (shift m z) = (exp (- m) * fst (cexp_opt z), exp (- m) * snd (cexp_opt z)).
Proof.
  destruct z as [z|]; cbn [shift option_map cexp_opt]; [|cbn [fst snd]; f_equal; ring].
  unfold cexp. cbn [fst snd]. unfold Rminus. rewrite exp_plus. f_equal; ring.
Qed.

Definition mass (psi : list (R * R)) := rsum (map cnorm2 psi).

Lemma to_array_ranks_false log_psi ranks n :
  to_array_ranks log_psi ranks n false = firstn n (map cexp_opt (concat (logs_of log_psi ranks n))).
Proof. unfold to_array_ranks, logs_of. cbv zeta. rewrite <- concat_map. reflexivity. Qed.

Lemma concat_map_map {A B} (f : A -> B) l : concat (map (map f) l) = map f (concat l).
Proof. symmetry. apply concat_map. Qed.

Lemma to_array_ranks_true log_psi ranks n : exists m, 
  to_array_ranks log_psi ranks n true
  = firstn n (let psi := map cexp_opt (map (shift m) (concat (logs_of log_psi ranks n))) in
              map (fun z => (fst z / sqrt (mass psi), snd z / sqrt (mass psi))) psi).
Proof.
  unfold to_array_ranks. cbv zeta. fold (logs_of log_psi ranks n). set (logs := logs_of log_psi ranks n).
  change (if _ <? _ then _ else _)%nat with logs.
  assert (E : exists m, match fold_left omax (concat logs) None with
      | Some m => map (map (option_map (fun z => (fst z - m, snd z)))) logs | None => logs end
      = map (map (shift m)) logs).
  { destruct (fold_left omax (concat logs) None) as [m|]; [exists m; reflexivity|].
    exists 0. rewrite <- (map_id logs) at 1. apply map_ext. intros r. rewrite <- (map_id r) at 1.
    apply map_ext. intros z. symmetry. apply shift_0. }
  destruct E as [m ->]. exists m. f_equal. rewrite rsum_concat. unfold mass.
  rewrite !concat_map_map. reflexivity.
Qed.

Lemma mass_scaled c psi : mass (scaled c psi) = c * c * mass psi.
Proof.
  unfold mass, scaled. rewrite map_map. rewrite <- rsum_scal, map_map. f_equal. apply map_ext. intros z.
  unfold cnorm2. cbn [fst snd]. ring.
Qed.
Lemma mass_app a b : mass (a ++ b) = mass a + mass b.
Proof. unfold mass. now rewrite map_app, rsum_app. Qed.
Lemma mass_zeros k : mass (repeat (0, 0) k) = 0.
Proof.
  induction k; [reflexivity|]. unfold mass in *. cbn [repeat map]. rewrite rsum_cons, IHk. unfold cnorm2. cbn [fst snd]. lra.
Qed.
Lemma mass_nonneg psi : 0 <= mass psi.
Proof.
  apply rsum_nonneg, Forall_forall. intros x Hx. apply in_map_iff in Hx. destruct Hx as [z [<- _]]. apply cnorm2_nonneg.
Qed.
Lemma amplitude_is log_psi i : amplitude_of log_psi i = cexp (log_psi i).
Proof. reflexivity. Qed.
Lemma mass_amplitudes log_psi l : (l <> [] -> 0 < mass (map (amplitude_of log_psi) l)).
Proof.
  destruct l as [|i l]; [congruence|]. intros _. unfold mass. cbn [map]. rewrite rsum_cons. fold (mass (map (amplitude_of log_psi) l)).
  pose proof (mass_nonneg (map (amplitude_of log_psi) l)). rewrite amplitude_is, cnorm2_cexp.
  pose proof (exp_pos (fst (log_psi i))). nra.
Qed.

Lemma map_repeat_none k : map cexp_opt (repeat None k) = repeat (0, 0) k.
Proof. induction k; cbn; [reflexivity|]. now rewrite IHk. Qed.

Lemma psi_concat log_psi n m : (0 < m)%nat ->
  map cexp_opt (concat (logs_of log_psi (states_per_rank n m) n))
  = map (amplitude_of log_psi) (seq 0 n) ++ map (amplitude_of log_psi) (seq 0 (kept n m - n))
    ++ repeat (0, 0) (m * ceil_nat n m - kept n m).
Proof.
  intros H. rewrite logs_concat by exact H. pose proof (kept_ge n m H) as [K1 K2].
  pose proof (ceil_bounds n m H) as [B1 B2].
  rewrite map_app, map_map. cbn [cexp_opt].
  replace (firstn (kept n m) (numbers n m)) with (seq 0 n ++ seq 0 (kept n m - n)).
  - rewrite map_app, <- app_assoc. do 2 f_equal. rewrite map_repeat_none. reflexivity.
  - unfold numbers. rewrite firstn_app, seq_length. rewrite (firstn_all2 (n := kept n m) (seq 0 n)) by (rewrite seq_length; lia).
    f_equal. symmetry. apply firstn_seq'. unfold padded. lia.
Qed.

Lemma firstn_exact {A} n (a b : list A) : length a = n -> firstn n (a ++ b) = a.
Proof. intros <-. rewrite firstn_app, Nat.sub_diag, firstn_all. cbn. apply app_nil_r. Qed.

Lemma array_plain n m log_psi : (0 < n)%nat -> (0 < m)%nat -> (m <= 2 * n)%nat ->
  to_array true n m log_psi false = Ok (map (amplitude_of log_psi) (seq 0 n)).
Proof.
  intros Hn Hm Hb. unfold to_array. cbn [negb].
  destruct (existsb _ _) eqn:E; [apply error_iff in E; lia|]. f_equal.
  rewrite to_array_ranks_false, psi_concat by exact Hm. apply firstn_exact. now rewrite map_length, seq_length.
Qed.

Lemma array_error n m log_psi nz : (0 < n)%nat -> (0 < m)%nat ->
  (to_array true n m log_psi nz = Err ValueError <-> (2 * n < m)%nat).
Proof.
  intros Hn Hm. unfold to_array. cbn [negb]. rewrite <- (error_iff n m Hn Hm).
  destruct (existsb _ _); split; congruence.
Qed.

Definition weight_of (log_psi : nat -> R * R) (n m : nat) : R :=
  mass (map (amplitude_of log_psi) (seq 0 n)) + mass (map (amplitude_of log_psi) (seq 0 (kept n m - n))).

Lemma array_normalised n m log_psi : (0 < n)%nat -> (0 < m)%nat -> (m <= 2 * n)%nat ->
  to_array true n m log_psi true = Ok (scaled (/ sqrt (weight_of log_psi n m)) (map (amplitude_of log_psi) (seq 0 n)))
  /\ 0 < mass (map (amplitude_of log_psi) (seq 0 n)).
Proof.
  intros Hn Hm Hb.
  assert (P : 0 < mass (map (amplitude_of log_psi) (seq 0 n))) by (apply mass_amplitudes; destruct n; [lia|discriminate]).
  split; [|exact P]. unfold to_array. cbn [negb].
  destruct (existsb _ _) eqn:E; [apply error_iff in E; lia|]. f_equal.
  destruct (to_array_ranks_true log_psi (states_per_rank n m) n) as [mx ->]. cbv zeta.
  assert (Es : map cexp_opt (map (shift mx) (concat (logs_of log_psi (states_per_rank n m) n)))
     = scaled (exp (- mx)) (map (amplitude_of log_psi) (seq 0 n) ++ map (amplitude_of log_psi) (seq 0 (kept n m - n))
    ++ repeat (0, 0) (m * ceil_nat n m - kept n m))).
  { rewrite <- psi_concat by exact Hm. unfold scaled. rewrite !map_map. apply map_ext. intros z. apply cexp_shift. }
  rewrite Es. rewrite mass_scaled, !mass_app, mass_zeros.
  replace (mass (map (amplitude_of log_psi) (seq 0 n)) + (mass (map (amplitude_of log_psi) (seq 0 (kept n m - n))) + 0))
    with (weight_of log_psi n m) by (unfold weight_of; lra).
  assert (W : 0 < weight_of log_psi n m).
  { unfold weight_of. pose proof (mass_nonneg (map (amplitude_of log_psi) (seq 0 (kept n m - n)))). lra. }
  assert (Sq : sqrt (exp (- mx) * exp (- mx) * weight_of log_psi n m) = exp (- mx) * sqrt (weight_of log_psi n m)).
  { rewrite sqrt_mult; [|pose proof (exp_pos (- mx)); nra|lra]. rewrite sqrt_square; [reflexivity|]. left. apply exp_pos. }
  rewrite Sq. unfold scaled. rewrite map_app, map_app, firstn_exact by (now rewrite !map_length, seq_length).
  rewrite map_map. apply map_ext. intros z. cbn [fst snd].
  pose proof (exp_pos (- mx)). pose proof (sqrt_lt_R0 _ W). f_equal; field; lra.
Qed.

Lemma scaled_norm c psi : norm_squared (scaled c psi) = c * c * norm_squared psi.
Proof. rewrite !norm_squared_rsum. apply mass_scaled. Qed.

Lemma array_norm n m log_psi psi : (0 < n)%nat -> (0 < m)%nat -> (m <= 2 * n)%nat ->
  to_array true n m log_psi true = Ok psi ->
  norm_squared psi = mass (map (amplitude_of log_psi) (seq 0 n)) / weight_of log_psi n m.
Proof.
  intros Hn Hm Hb E. destruct (array_normalised n m log_psi Hn Hm Hb) as [E' P]. rewrite E' in E. injection E as <-.
  rewrite scaled_norm, norm_squared_rsum. fold (mass (map (amplitude_of log_psi) (seq 0 n))).
  assert (W : 0 < weight_of log_psi n m).
  { unfold weight_of. pose proof (mass_nonneg (map (amplitude_of log_psi) (seq 0 (kept n m - n)))). lra. }
  pose proof (sqrt_lt_R0 _ W). pose proof (sqrt_sqrt (weight_of log_psi n m) ltac:(lra)) as S.
  rewrite <- S at 3. field. lra.
Qed.

Lemma weight_one n m log_psi : (0 < m)%nat -> one_padded_rank n m ->
  weight_of log_psi n m = norm_squared (map (amplitude_of log_psi) (seq 0 n)).
Proof.
  intros Hm H. apply kept_eq in H; [|exact Hm]. unfold weight_of. rewrite H, Nat.sub_diag, norm_squared_rsum. cbn [seq map].
  unfold mass at 2. cbn. unfold mass. lra.
Qed.

Lemma array_main n m log_psi : (0 < n)%nat -> (0 < m)%nat -> one_padded_rank n m -> exists psi,
  to_array true n m log_psi true = Ok psi /\ norm_squared psi = 1 /\
  exists c, 0 < c /\ psi = scaled c (map (amplitude_of log_psi) (seq 0 n)).
Proof.
  intros Hn Hm H.
  assert (Hb : (m <= 2 * n)%nat).
  { destruct (Nat.le_gt_cases m (2 * n)) as [L|L]; [exact L|]. exfalso. unfold one_padded_rank in H.
    assert (1 <= ceil_nat n m)%nat by (unfold ceil_nat; apply Nat.div_le_lower_bound; lia). nia. }
  destruct (array_normalised n m log_psi Hn Hm Hb) as [E P]. eexists. split; [exact E|].
  pose proof (array_norm n m log_psi _ Hn Hm Hb E) as N. rewrite N. rewrite weight_one by assumption.
  rewrite norm_squared_rsum. fold (mass (map (amplitude_of log_psi) (seq 0 n))). split.
  - apply Rinv_r. lra.
  - eexists. split; [|reflexivity]. apply Rinv_0_lt_compat, sqrt_lt_R0, P.
Qed.

Lemma array_iff n m log_psi psi : (0 < n)%nat -> (0 < m)%nat ->
  to_array true n m log_psi true = Ok psi -> (norm_squared psi = 1 <-> one_padded_rank n m).
Proof.
  intros Hn Hm E.
  assert (Hb : (m <= 2 * n)%nat).
  { destruct (Nat.le_gt_cases m (2 * n)) as [L|L]; [exact L|]. apply (array_error n m log_psi true Hn Hm) in L. congruence. }
  rewrite (array_norm n m log_psi psi Hn Hm Hb E).
  destruct (array_normalised n m log_psi Hn Hm Hb) as [_ P].
  rewrite <- (kept_eq n m Hm). pose proof (kept_ge n m Hm) as [K _].
  unfold weight_of. split.
  - intros Q. destruct (Nat.eq_dec (kept n m) n) as [|D]; [assumption|exfalso].
    assert (F : 0 < mass (map (amplitude_of log_psi) (seq 0 (kept n m - n)))).
    { apply mass_amplitudes. destruct (kept n m - n)%nat eqn:X; [lia|discriminate]. }
    set (a := mass (map (amplitude_of log_psi) (seq 0 n))) in *.
    set (b := mass (map (amplitude_of log_psi) (seq 0 (kept n m - n)))) in *. assert (a / (a + b) < 1); [|lra].
    apply (Rmult_lt_reg_r (a + b)); [lra|]. unfold Rdiv. rewrite Rmult_assoc, Rinv_l by lra. lra.
  - intros ->. rewrite Nat.sub_diag. cbn [seq map]. unfold mass at 3. cbn. rewrite Rplus_0_r. apply Rinv_r. lra.
Qed.

(** ** density matrices *)
Lemma cdiv_add a b t : cnorm2 t <> 0 -> cadd (cdiv a t) (cdiv b t) = cdiv (cadd a b) t.
Proof. intros H. unfold cadd, cdiv. cbn [fst snd]. f_equal; field; exact H. Qed.
Lemma trace_div L rho t : cnorm2 t <> 0 ->
  mat_trace L (map (map (fun z => cdiv z t)) rho) = cdiv (mat_trace L rho) t.
Proof.
  intros H. unfold mat_trace. generalize (seq 0 L) as l. induction l as [|i l IH].
  - cbn. unfold cdiv. cbn. f_equal; field; exact H.
  - cbn [map fold_right]. rewrite IH, <- cdiv_add by exact H. f_equal.
    rewrite (map_nth' (map (fun z => cdiv z t)) []) by reflexivity.
    apply (map_nth' (fun z => cdiv z t)). unfold cdiv. cbn. f_equal; field; exact H.
Qed.

Lemma matrix_main L m log_psi rho : (0 < L)%nat -> (0 < m)%nat -> (m <= 2 * (L * L))%nat ->
  to_matrix true L m log_psi false = Ok rho ->
  (forall i j, (i < L)%nat -> (j < L)%nat -> nth j (nth i rho []) (0, 0) = amplitude_of log_psi (i * L + j)) /\
  (cnorm2 (mat_trace L rho) <> 0 -> exists rho', to_matrix true L m log_psi true = Ok rho' /\ mat_trace L rho' = (1, 0)).
Proof.
  intros HL Hm Hb. unfold to_matrix. cbn [negb]. rewrite array_plain by nia. cbn [bind]. intros E. injection E as <-.
  split.
  - intros i j Hi Hj. rewrite reshape_map_seq by exact Hi. rewrite nth_map_seq' by exact Hj. reflexivity.
  - intros N. eexists. split; [reflexivity|]. rewrite trace_div by exact N.
    set (t := mat_trace _ _) in *. unfold cdiv. unfold cnorm2 in *. f_equal; field; exact N.
Qed.

Lemma diagonal_sum_is L rho : diagonal_sum L rho = mat_trace L rho.
Proof.
  unfold mat_trace. induction L as [|k IH]; [reflexivity|].
  rewrite seq_S, map_app, fold_right_app. cbn [map fold_right diagonal_sum]. rewrite IH. unfold entry_of.
  change (0 + k)%nat with k. set (e := nth k (nth k rho []) (0, 0)).
  enough (H : forall l : list (R * R), fold_right cadd (cadd e (0, 0)) l
     = cadd (fold_right cadd (0, 0) l) e) by (rewrite H; reflexivity).
  induction l as [|a l IHl]; cbn [fold_right].
  - unfold cadd. cbn. f_equal; ring.
  - rewrite IHl. unfold cadd. cbn. f_equal; ring.
Qed.
Lemma matrix_spec L m log_psi rho : (0 < L)%nat -> (0 < m)%nat -> (m <= 2 * (L * L))%nat ->
  to_matrix true L m log_psi false = Ok rho ->
  (forall i j, (i < L)%nat -> (j < L)%nat -> entry_of rho i j = amplitude_of log_psi (i * L + j)) /\
  (diagonal_sum L rho <> (0, 0) -> exists rho' c, to_matrix true L m log_psi true = Ok rho' /\
     diagonal_sum L rho' = (1, 0) /\
     forall i j, (i < L)%nat -> (j < L)%nat -> entry_of rho' i j = times c (entry_of rho i j)).
Proof.
  intros HL Hm Hb E. destruct (matrix_main L m log_psi rho HL Hm Hb E) as [A B]. split; [exact A|].
  rewrite diagonal_sum_is. intros N.
  assert (N' : cnorm2 (mat_trace L rho) <> 0).
  { unfold cnorm2. intros Z. apply N. apply injective_projections; cbn [fst snd]; nra. }
  destruct (B N') as [rho' [E' T]]. exists rho', (cdiv (1, 0) (mat_trace L rho)). split; [exact E'|].
  split; [now rewrite diagonal_sum_is|]. intros i j Hi Hj. revert E' E. unfold to_matrix. cbn [negb].
  rewrite array_plain by nia. cbn [bind]. intros E' E. injection E as E. rewrite E in E'. injection E' as <-.
  unfold entry_of. rewrite (map_nth' (map (fun z => cdiv z (mat_trace L rho))) []) by reflexivity.
  rewrite (map_nth' (fun z => cdiv z (mat_trace L rho)) (0, 0)).
  - unfold cdiv. unfold times. cbn [fst snd]. apply injective_projections; cbn [fst snd]; unfold Rdiv; ring.
  - unfold cdiv, cnorm2 in *. cbn [fst snd]. f_equal; field; exact N'.
Qed.
