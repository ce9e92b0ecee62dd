From Coq Require Import List Arith ZArith Bool Reals Lra Lia Ring Permutation.
From Verif Require Import Base Rings ARNN_Model ARNN_Proofs ToArray_Model Estim_Model Estim_Proofs
  Group_Model Group_Spec Symm_Model Symm_Spec Symm_Proofs Ansatz_Model Ansatz_Spec.
Import ListNotations.
Open Scope R_scope.

Ltac rg := first [ring | match goal with |- ?a = ?b => change (@eq (T cC) a b) end; ring].

(** ** logarithm and log_cosh *)
Lemma cnorm2_nonneg z : 0 <= cnorm2 z.
Proof. unfold cnorm2. nra. Qed.
Lemma cnorm2_zero z : cnorm2 z = 0 -> z = (0, 0).
Proof.
  destruct z as [a b]. unfold cnorm2. cbn [fst snd]. intros H. f_equal; nra.
Qed.
Lemma clog_exp z : amplitude (clog z) = z.
Proof.
  unfold clog. destruct (Req_EM_T (cnorm2 z) 0) as [E|E]; [symmetry; apply cnorm2_zero, E|].
  pose proof (cnorm2_nonneg z). assert (Hp : 0 < cnorm2 z) by lra.
  set (m := sqrt (cnorm2 z)). assert (Hm : 0 < m) by (apply sqrt_lt_R0, Hp).
  assert (Hm2 : m * m = cnorm2 z) by (apply sqrt_sqrt; lra).
  assert (Ht : -1 <= fst z / m <= 1).
  { assert (Rabs (fst z) <= m).
    { rewrite <- (Rabs_pos_eq m) by lra. apply Rsqr_le_abs_0. unfold Rsqr. rewrite Hm2. unfold cnorm2. nra. }
    pose proof (Rle_abs (fst z)). pose proof (Rle_abs (- fst z)). rewrite Rabs_Ropp in *.
    split; apply (Rmult_le_reg_r m); try lra; unfold Rdiv; rewrite Rmult_assoc, Rinv_l by lra; lra. }
  assert (Hs : m * sqrt (1 - (fst z / m)²) = Rabs (snd z)).
  { rewrite <- (sqrt_Rsqr m) at 1 by lra. rewrite <- sqrt_mult_alt by (unfold Rsqr; nra).
    rewrite <- sqrt_Rsqr_abs. f_equal. unfold Rsqr. replace (m * m * (1 - fst z / m * (fst z / m))) with (m * m - fst z * fst z) by (field; lra).
    rewrite Hm2. unfold cnorm2. rg. }
  unfold amplitude, cexp. cbn [fst snd]. rewrite exp_ln by exact Hm.
  destruct (Rle_dec 0 (snd z)) as [H0|H0].
  - rewrite cos_acos, sin_acos by lra. rewrite Hs. rewrite Rabs_pos_eq by exact H0. destruct z as [a b]. cbn [fst snd] in *. f_equal. field. lra.
  - rewrite cos_neg, sin_neg, cos_acos, sin_acos by lra.
    replace (m * - sqrt (1 - (fst z / m)²)) with (- (m * sqrt (1 - (fst z / m)²))) by rg. rewrite Hs.
    rewrite Rabs_left by lra. destruct z as [a b]. cbn [fst snd] in *. f_equal; [field; lra|rg].
Qed.

Lemma amplitude_ladd a b : amplitude (ladd a b) = (amplitude a * amplitude b)%C.
Proof.
  destruct a as [a|], b as [b|]; cbn [ladd amplitude]; [apply cexp_mul|..]; cpx; rg.
Qed.
Lemma amplitude_map (c : cpx) l : amplitude (option_map (fun l => c + l)%C l) = (cexp c * amplitude l)%C.
Proof. destruct l as [l|]; cbn [option_map amplitude]; [apply cexp_mul|cpx; rg]. Qed.
Lemma cexp_real r : cexp (r, 0) = emb (exp r).
Proof. unfold cexp, emb. cbn [fst snd]. rewrite cos_0, sin_0. f_equal; rg. Qed.
Lemma cexp_0 : cexp (r0 cC) = r1 cC.
Proof. change (cexp (0, 0) = emb 1). rewrite cexp_real, exp_0. reflexivity. Qed.
Lemma cexp_conj z : cexp (conj z) = conj (cexp z).
Proof. unfold cexp. cpx; rewrite ?cos_neg, ?sin_neg; rg. Qed.
Lemma ccosh_opp z : ccosh (ropp cC z) = ccosh z.
Proof. unfold ccosh. f_equal. replace (ropp cC (ropp cC z)) with z by rg. rg. Qed.
Lemma log_cosh_amplitude z : amplitude (log_cosh z) = ccosh z.
Proof.
  unfold log_cosh. set (sgn := if Rlt_dec (fst z) 0 then -1 else 1).
  assert (Hc : ccosh (rscal sgn z) = ccosh z).
  { unfold sgn. destruct (Rlt_dec (fst z) 0).
    - rewrite <- (ccosh_opp z). f_equal. rewrite rscal_emb. unfold emb. cpx; rg.
    - f_equal. rewrite rscal_emb. unfold emb. cpx; rg. }
  rewrite <- Hc. set (x := rscal sgn z).
  transitivity (amplitude (option_map (fun l => (x - (ln 2, 0)) + l)%C (clog ((1, 0) + cexp (rscal (-2) x))%C))).
  { f_equal. destruct (clog _); [|reflexivity]. cbn [option_map]. f_equal. rg. }
  rewrite amplitude_map, clog_exp. unfold ccosh. rewrite !rscal_emb.
  replace (cexp (x - (ln 2, 0))%C) with (cexp x * emb (1 / 2))%C.
  2:{ replace (x - (ln 2, 0))%C with (x + (- ln 2, 0))%C by (cpx; rg). rewrite cexp_mul, cexp_real. f_equal. f_equal.
      rewrite exp_Ropp, exp_ln by lra. field. }
  replace (cexp (ropp cC x)) with (cexp x * cexp (emb (-2) * x))%C.
  2:{ rewrite <- cexp_mul. f_equal. unfold emb. cpx; rg. }
  change (1, 0) with (r1 cC). rg.
Qed.

Lemma cosh_pos x : 0 < cosh x.
Proof. unfold cosh. pose proof (exp_pos x). pose proof (exp_pos (- x)). lra. Qed.
Lemma clog_pos r : 0 < r -> clog (r, 0) = Some (ln r, 0).
Proof.
  intros Hr. unfold clog. destruct (Req_EM_T (cnorm2 (r, 0)) 0) as [E|E].
  - unfold cnorm2 in E. cbn [fst snd] in E. nra.
  - replace (sqrt (cnorm2 (r, 0))) with r.
    2:{ unfold cnorm2. cbn [fst snd]. replace (r * r + 0 * 0) with (r * r) by rg. rewrite sqrt_square; lra. }
    cbn [fst snd]. replace (r / r) with 1 by (field; lra). rewrite acos_1.
    destruct (Rle_dec 0 0); [reflexivity|lra].
Qed.
Lemma log_cosh_real x : log_cosh (x, 0) = Some (ln (cosh x), 0).
Proof.
  unfold log_cosh. cbn [fst]. set (sgn := if Rlt_dec x 0 then -1 else 1).
  assert (Hs : sgn * sgn = 1) by (unfold sgn; destruct (Rlt_dec x 0); rg).
  assert (Hc : cosh (sgn * x) = cosh x).
  { unfold sgn, cosh. destruct (Rlt_dec x 0); [|f_equal; f_equal; f_equal; rg].
    replace (- (-1 * x)) with x by rg. replace (-1 * x) with (- x) by rg. f_equal. rg. }
  replace (rscal sgn (x, 0)) with ((sgn * x, 0) : cpx) by (unfold rscal; cbn [fst snd]; f_equal; rg).
  set (y := sgn * x) in *. unfold rscal. cbn [fst snd].
  replace (-2 * 0) with 0 by rg. rewrite cexp_real. unfold emb.
  cbn [radd cC fst snd]. replace (0 + 0) with 0 by rg.
  pose proof (exp_pos (-2 * y)). rewrite clog_pos by lra. cbn [option_map rsub radd cC fst snd]. f_equal. f_equal; [|rg].
  rewrite <- Hc. replace (y + ln (1 + exp (-2 * y)) - ln 2) with (ln (exp y) + ln (1 + exp (-2 * y)) + ln (/ 2)).
  2:{ rewrite ln_exp, ln_Rinv by lra. rg. }
  pose proof (exp_pos y). rewrite <- ln_mult by lra. rewrite <- ln_mult by nra. f_equal. unfold cosh.
  replace (exp (- y)) with (exp y * exp (-2 * y)) by (rewrite <- exp_plus; f_equal; rg). field.
Qed.
Lemma cosh_bounds x : exp (Rabs x) / 2 <= cosh x <= exp (Rabs x).
Proof.
  assert (H : cosh x = cosh (Rabs x)).
  { unfold Rabs. destruct (Rcase_abs x); [|reflexivity]. unfold cosh. rewrite Ropp_involutive. f_equal. rg. }
  rewrite H. clear H. pose proof (Rabs_pos x). set (y := Rabs x) in *. unfold cosh.
  pose proof (exp_pos (- y)). assert (exp (- y) <= exp y); [|split; lra].
  destruct (Req_dec y 0) as [->|]; [rewrite Ropp_0; lra|]. apply Rlt_le, exp_increasing. lra.
Qed.
Lemma log_cosh_bounds x : exists v, log_cosh (x, 0) = Some (v, 0) /\ Rabs x - ln 2 <= v <= Rabs x.
Proof.
  exists (ln (cosh x)). split; [apply log_cosh_real|]. pose proof (cosh_bounds x) as [H1 H2]. pose proof (exp_pos (Rabs x)).
  split.
  - replace (Rabs x - ln 2) with (ln (exp (Rabs x) / 2)).
    2:{ unfold Rdiv. rewrite ln_mult, ln_exp, ln_Rinv by lra. reflexivity. }
    destruct H1 as [H1|H1]; [apply Rlt_le, ln_increasing; lra|rewrite H1; lra].
  - rewrite <- (ln_exp (Rabs x)). pose proof (cosh_pos x).
    destruct H2 as [H2|H2]; [apply Rlt_le, ln_increasing; lra|rewrite H2; lra].
Qed.

(** ** sums of logarithms *)
Lemma amplitude_sum_app l m : amplitude (lsum_log (l ++ m)) = (amplitude (lsum_log l) * amplitude (lsum_log m))%C.
Proof.
  induction l as [|x l IH]; cbn [app lsum_log].
  - cbn [amplitude]. change (cexp (0, 0)) with (cexp (r0 cC)). rewrite cexp_0. rg.
  - rewrite !amplitude_ladd, IH. rg.
Qed.
Lemma amplitude_sum f n : amplitude (lsum_log (map f (seq 0 n))) = cprod n (fun j => amplitude (f j)).
Proof.
  induction n as [|n IH]; [exact cexp_0|]. rewrite seq_S, map_app, amplitude_sum_app, IH. cbn [map lsum_log cprod Nat.add].
  rewrite amplitude_ladd. cbn [amplitude]. change (cexp (0, 0)) with (cexp (r0 cC)). rewrite cexp_0. rg.
Qed.
Lemma cprod_ext n f g : (forall i, (i < n)%nat -> f i = g i) -> cprod n f = cprod n g.
Proof. induction n; intros H; cbn [cprod]; [reflexivity|]. rewrite IHn by auto. f_equal. auto. Qed.

Lemma dense_theta n W b s j : dense n W b s j = theta n W b s j.
Proof.
  unfold dense, theta, dot. replace (fsum cC n (fun i => (W i j * s i)%C)) with (fsum cC n (fun i => (s i * W i j)%C)).
  2:{ apply (fsum_ext cC). intros i _. rg. }
  destruct b; [reflexivity|]. change (0, 0) with (r0 cC). rg.
Qed.
Lemma hidden_amplitude n m W b s :
  amplitude (hidden log_cosh n m W b s) = cprod m (fun j => ccosh (theta n W b s j)).
Proof.
  unfold hidden. rewrite amplitude_sum. apply cprod_ext. intros j _. rewrite log_cosh_amplitude, dense_theta. reflexivity.
Qed.
Lemma dot_visible n a s : dot n s a = visible n (Some a) s.
Proof. unfold dot, visible. apply (fsum_ext cC). intros i _. rg. Qed.
Lemma rbm_main n m W b a s :
  amplitude (rbm log_cosh n m W b a s) = (cexp (visible n a s) * cprod m (fun j => ccosh (theta n W b s j)))%C.
Proof.
  unfold rbm. destruct a as [a|].
  - rewrite amplitude_ladd, hidden_amplitude. cbn [amplitude]. rewrite dot_visible. rg.
  - rewrite hidden_amplitude. unfold visible. change (cexp (0, 0)) with (cexp (r0 cC)). rewrite cexp_0. rg.
Qed.

(** ** real networks *)
Lemma lsum_log_real (f : nat -> R) l : lsum_log (map (fun j => Some (f j, 0)) l) = Some (lsum rR (map f l), 0).
Proof.
  induction l as [|j l IH]; [reflexivity|]. cbn [map lsum_log]. rewrite IH. cbn [ladd map lsum radd rR cC fst snd]. f_equal. apply injective_projections; cbn [fst snd]; [reflexivity|]. apply Rplus_0_r.
Qed.
Lemma fsum_isreal n f : (forall i, isreal (f i)) -> isreal (fsum cC n f).
Proof. intros H. unfold isreal. rewrite snd_fsum. apply (fsum_zero rR rR_laws). intros i _. apply H. Qed.
Lemma isreal_mul a b : isreal a -> isreal b -> isreal (a * b)%C.
Proof. unfold isreal. cbn [cC rmul fst snd]. intros -> ->. rg. Qed.
Lemma isreal_add a b : isreal a -> isreal b -> isreal (a + b)%C.
Proof. unfold isreal. cbn [cC radd fst snd]. intros -> ->. rg. Qed.
Lemma isreal_eta z : isreal z -> z = (fst z, 0).
Proof. destruct z as [a b]. unfold isreal. cbn. intros ->. reflexivity. Qed.
Lemma theta_real n W b s j : real_kernel W -> real_opt b -> real_vec s -> isreal (theta n W b s j).
Proof.
  intros HW Hb Hs. unfold theta. apply isreal_add.
  - apply fsum_isreal. intros i. apply isreal_mul; [apply HW|apply Hs].
  - destruct b as [b|]; [apply (Hb b eq_refl)|reflexivity].
Qed.
Definition net (n m : nat) (W : nat -> nat -> cpx) b s : R :=
  lsum rR (map (fun j => ln (cosh (fst (theta n W b s j)))) (seq 0 m)).
Lemma hidden_real n m W b s : real_kernel W -> real_opt b -> real_vec s ->
  hidden log_cosh n m W b s = Some (net n m W b s, 0).
Proof.
  intros HW Hb Hs. unfold hidden, net. rewrite <- lsum_log_real. f_equal. apply map_ext. intros j.
  rewrite dense_theta, (isreal_eta _ (theta_real n W b s j HW Hb Hs)), log_cosh_real. reflexivity.
Qed.
Lemma exp_net n m W b s : exp (net n m W b s) = rprod m (fun j => cosh (fst (theta n W b s j))).
Proof.
  unfold net. induction m as [|m IH]; [exact exp_0|]. rewrite seq_S, map_app, (lsum_app rR rR_laws).
  cbn [map lsum radd rR r0 rprod Nat.add]. rewrite exp_plus, IH. f_equal.
  change (exp (ln (cosh (fst (theta n W b s m))) + 0) = cosh (fst (theta n W b s m))).
  rewrite Rplus_0_r. apply exp_ln, cosh_pos.
Qed.
Lemma modphase_main n m W b W' b' s :
  real_kernel W -> real_opt b -> real_kernel W' -> real_opt b' -> real_vec s ->
  amplitude (rbm_modphase log_cosh n m W b W' b' s)
  = (emb (rprod m (fun j => cosh (fst (theta n W b s j))))
     * cexp (0, ln (rprod m (fun j => cosh (fst (theta n W' b' s j))))))%C.
Proof.
  intros H1 H2 H3 H4 H5. unfold rbm_modphase. rewrite !hidden_real by assumption. rewrite amplitude_ladd.
  cbn [amplitude lscale option_map]. rewrite cexp_real, exp_net. f_equal. f_equal.
  rewrite <- exp_net, ln_exp. cpx; rg.
Qed.

(** ** Jastrow *)
Lemma jastrow_main n W x :
  jastrow n W x = rscal 2 (fsum cC n (fun i => fsum cC n (fun j => (x i * W i j * x j)%C))).
Proof.
  unfold jastrow. rewrite rscal_emb.
  transitivity (fsum cC n (fun i => fsum cC n (fun j => (x i * W i j * x j)%C)) +
                fsum cC n (fun i => fsum cC n (fun j => (x i * W j i * x j)%C)))%C.
  - rewrite <- (fsum_add cC cC_laws). apply (fsum_ext cC). intros i _. rewrite <- (fsum_add cC cC_laws).
    apply (fsum_ext cC). intros j _. rg.
  - rewrite (fsum_swap cC cC_laws n n (fun i j => (x i * W j i * x j)%C)).
    replace (fsum cC n (fun j => fsum cC n (fun i => (x i * W j i * x j)%C)))
      with (fsum cC n (fun i => fsum cC n (fun j => (x i * W i j * x j)%C))).
    2:{ apply (fsum_ext cC). intros i _. apply (fsum_ext cC). intros j _. rg. }
    set (z := fsum cC n _). unfold emb. cpx; rg.
Qed.

(** ** symmetric machines *)
Lemma lsum_log_perm l m : Permutation l m -> lsum_log l = lsum_log m.
Proof.
  induction 1; cbn [lsum_log]; try congruence.
  destruct x as [x|], y as [y|], (lsum_log l) as [z|]; cbn [ladd]; try reflexivity. f_equal. rg.
Qed.
Lemma concat_perm {A} (a b : list (list A)) : Forall2 (@Permutation A) a b -> Permutation (concat a) (concat b).
Proof. induction 1; cbn [concat]; [constructor|]. apply Permutation_app; assumption. Qed.
Lemma permuted_list_perm {A} (d : A) n g (x : list A) : isperm n g -> length x = n -> Permutation (permuted d g x) x.
Proof.
  intros Hg Hx. unfold permuted.
  apply (Permutation_trans (l' := map (fun k => nth k x d) (seq 0 (length x)))); [|rewrite <- list_nth_seq; apply Permutation_refl].
  unfold isperm in Hg. subst n. apply Permutation_map, Hg.
Qed.
Lemma lsum_perm_cC l m : Permutation l m -> lsum cC l = lsum cC m.
Proof. induction 1; cbn [lsum]; try congruence. rg. Qed.
Lemma rbm_symm_main act n rows features kernel hb vb x g :
  permutation_group n rows -> length kernel = (n * features)%nat -> length x = n -> In g rows ->
  rbm_symm act rows features kernel hb vb (permuted (0, 0) g x) = rbm_symm act rows features kernel hb vb x.
Proof.
  intros HG Hk Hx Hg. unfold rbm_symm.
  rewrite (lsum_log_perm _ (map act (concat (dense_symm cC rows features kernel None hb x)))).
  2:{ apply Permutation_map, concat_perm. apply (symm_pooled cC cC_laws n); assumption. }
  destruct vb as [v|]; [|reflexivity]. rewrite (lsum_perm_cC (permuted (0, 0) g x) x); [reflexivity|].
  apply (permuted_list_perm (0, 0) n); [|exact Hx]. destruct HG as (HG & _). rewrite Forall_forall in HG. auto.
Qed.

(** ** one-hot encoding *)
Lemma one_hot_injective n k x y : (0 < k)%nat ->
  (forall i, (i < n)%nat -> (0 <= x i < Z.of_nat k)%Z) -> (forall i, (i < n)%nat -> (0 <= y i < Z.of_nat k)%Z) ->
  (forall p, (p < k * n)%nat -> one_hot k x p = one_hot k y p) -> forall i, (i < n)%nat -> x i = y i.
Proof.
  intros Hk Hx Hy H i Hi. specialize (Hx i Hi). specialize (H (i * k + Z.to_nat (x i))%nat).
  assert (D : ((i * k + Z.to_nat (x i)) / k = i /\ (i * k + Z.to_nat (x i)) mod k = Z.to_nat (x i))%nat).
  { apply div_mod_at. lia. }
  unfold one_hot in H. rewrite (proj1 D), (proj2 D), Z2Nat.id in H by lia. rewrite Z.eqb_refl in H.
  destruct (Z.eqb_spec (y i) (x i)); [congruence|]. exfalso.
  assert ((i * k + Z.to_nat (x i) < k * n)%nat) by nia. specialize (H H0). injection H. lra.
Qed.

(** ** the neural density matrix *)
Definition gram {X} (ok : X -> Prop) (K : X -> X -> cpx) : Prop :=
  exists fs : list (X -> cpx), forall x y, ok x -> ok y -> K x y = lsum cC (map (fun f => (f x * conj (f y))%C) fs).
Lemma gram_ext {X} (ok : X -> Prop) K K' : (forall x y, ok x -> ok y -> K x y = K' x y) -> gram ok K -> gram ok K'.
Proof. intros H (fs & E). exists fs. intros x y Hx Hy. rewrite <- H by assumption. auto. Qed.
Lemma gram_one {X} (ok : X -> Prop) (f : X -> cpx) : gram ok (fun x y => (f x * conj (f y))%C).
Proof. exists [f]. intros x y _ _. cbn [map lsum]. rg. Qed.
Lemma gram_add {X} (ok : X -> Prop) K K' : gram ok K -> gram ok K' -> gram ok (fun x y => (K x y + K' x y)%C).
Proof.
  intros (fs & E) (gs & E'). exists (fs ++ gs). intros x y Hx Hy. rewrite map_app, (lsum_app cC cC_laws), E, E' by assumption. reflexivity.
Qed.
Lemma conj_mul a b : conj (a * b)%C = (conj a * conj b)%C.
Proof. apply (cr_conj_mul cC cC_laws). Qed.
Lemma conj_add a b : conj (a + b)%C = (conj a + conj b)%C.
Proof. apply (cr_conj_add cC cC_laws). Qed.
Lemma gram_mul {X} (ok : X -> Prop) K K' : gram ok K -> gram ok K' -> gram ok (fun x y => (K x y * K' x y)%C).
Proof.
  intros (fs & E) (gs & E').
  exists (flat_map (fun f => map (fun g x => (f x * g x)%C) gs) fs). intros x y Hx Hy. rewrite E, E' by assumption.
  clear E E'. induction fs as [|f fs IH]; cbn [flat_map map lsum].
  - rg.
  - rewrite map_app, (lsum_app cC cC_laws), <- IH. rewrite map_map.
    replace (lsum cC (map (fun g => (f x * g x * conj (f y * g y))%C) gs))
      with (f x * conj (f y) * lsum cC (map (fun g => (g x * conj (g y))%C) gs))%C; [rg|].
    clear IH. induction gs as [|g gs IH]; cbn [map lsum]; [rg|]. rewrite <- IH, conj_mul. rg.
Qed.
Lemma gram_scale {X} (ok : X -> Prop) c K : 0 <= c -> gram ok K -> gram ok (fun x y => rscal c (K x y)).
Proof.
  intros Hc HK. apply (gram_ext ok (fun x y => (emb (sqrt c) * conj (emb (sqrt c)) * K x y)%C)).
  - intros x y _ _. rewrite rscal_emb. f_equal. unfold emb. cpx; [|rg]. rewrite <- (sqrt_sqrt c) at 3 by exact Hc. rg.
  - apply gram_mul; [|exact HK]. apply (gram_one ok (fun _ => emb (sqrt c))).
Qed.
Lemma gram_prod {X} (ok : X -> Prop) n K : (forall j, (j < n)%nat -> gram ok (K j)) -> gram ok (fun x y => cprod n (fun j => K j x y)).
Proof.
  induction n as [|n IH]; intros H; cbn [cprod].
  - apply (gram_ext ok (fun x y => (r1 cC * conj (r1 cC))%C)).
    + intros x y _ _. cpx; rg.
    + apply (gram_one ok (fun _ => r1 cC)).
  - apply gram_mul; [apply IH; auto|apply H; lia].
Qed.
Lemma lsum_scal c l : lsum cC (map (fun z => (c * z)%C) l) = (c * lsum cC l)%C.
Proof. induction l as [|x l IH]; cbn [map lsum]; [rg|]. rewrite IH. rg. Qed.
Lemma conj_lsum l : conj (lsum cC l) = lsum cC (map conj l).
Proof. induction l as [|x l IH]; cbn [map lsum]; [cpx; rg|]. rewrite conj_add, IH. reflexivity. Qed.
Lemma lsum_map_add {X} (f g : X -> cpx) l :
  lsum cC (map (fun x => (f x + g x)%C) l) = (lsum cC (map f l) + lsum cC (map g l))%C.
Proof. induction l as [|x l IH]; cbn [map lsum]; [rg|]. rewrite IH. rg. Qed.
Lemma map_ext_forall {A B} (P : A -> Prop) (f g : A -> B) l : Forall P l -> (forall x, P x -> f x = g x) -> map f l = map g l.
Proof. induction 1; intros E; cbn [map]; [reflexivity|]. rewrite E, IHForall by assumption. reflexivity. Qed.
Lemma quadratic_one {X} (f : X -> cpx) v :
  quadratic (fun x y => (f x * conj (f y))%C) v
  = (lsum cC (map (fun a => (conj (fst a) * f (snd a))%C) v) * conj (lsum cC (map (fun a => (conj (fst a) * f (snd a))%C) v)))%C.
Proof.
  unfold quadratic. set (w := lsum cC (map (fun a => (conj (fst a) * f (snd a))%C) v)).
  transitivity (lsum cC (map (fun a => (conj w * (conj (fst a) * f (snd a)))%C) v)).
  - f_equal. apply map_ext. intros a. unfold w. rewrite conj_lsum, map_map.
    replace (lsum cC (map (fun x : cpx * X => conj (conj (fst x) * f (snd x))%C) v) * (conj (fst a) * f (snd a)))%C
      with (conj (fst a) * f (snd a) * lsum cC (map (fun x : cpx * X => conj (conj (fst x) * f (snd x))%C) v))%C by rg.
    rewrite <- lsum_scal, map_map. f_equal. apply map_ext. intros b. rewrite conj_mul, (cr_conj_conj cC cC_laws). rg.
  - rewrite <- (map_map (fun a => (conj (fst a) * f (snd a))%C) (fun z => (conj w * z)%C)), lsum_scal. fold w. rg.
Qed.
Lemma gram_quadratic {X} (ok : X -> Prop) K fs v : Forall (fun a => ok (snd a)) v ->
  (forall x y, ok x -> ok y -> K x y = lsum cC (map (fun f => (f x * conj (f y))%C) fs)) ->
  quadratic K v = lsum cC (map (fun f => quadratic (fun x y => (f x * conj (f y))%C) v) fs).
Proof.
  intros Hv E. transitivity (quadratic (fun x y => lsum cC (map (fun f => (f x * conj (f y))%C) fs)) v).
  { unfold quadratic. f_equal. apply (map_ext_forall (fun a => ok (snd a))); [exact Hv|]. intros a Ha. f_equal.
    apply (map_ext_forall (fun a => ok (snd a))); [exact Hv|]. intros b Hb. rewrite E by assumption. reflexivity. }
  clear E. induction fs as [|f fs IH]; cbn [map lsum].
  - unfold quadratic. transitivity (lsum cC (map (fun _ : cpx * X => r0 cC) v)).
    + f_equal. apply map_ext. intros a. transitivity (lsum cC (map (fun _ : cpx * X => r0 cC) v)).
      * f_equal. apply map_ext. intros b. rg.
      * clear. induction v as [|b v IH]; cbn [map lsum]; [reflexivity|]. rewrite IH. rg.
    + clear. induction v as [|b v IH]; cbn [map lsum]; [reflexivity|]. rewrite IH. rg.
  - rewrite <- IH. clear IH. unfold quadratic. rewrite <- lsum_map_add. f_equal. apply map_ext. intros a.
    rewrite <- lsum_map_add. f_equal. apply map_ext. intros b. rg.
Qed.
Lemma gram_psd {X} (ok : X -> Prop) K : gram ok K -> positive_semidefinite ok K.
Proof.
  intros (fs & E) v Hv. rewrite (gram_quadratic ok K fs v Hv E). clear E.
  induction fs as [|f fs [IH1 IH2]]; cbn [map lsum]; [split; [apply Rle_refl|reflexivity]|].
  rewrite quadratic_one. set (w := lsum cC _). set (r := lsum cC _) in *. cbn [cC radd rmul rconj fst snd].
  split; [|rewrite IH2; rg]. nra.
Qed.
Lemma gram_hermitian {X} (ok : X -> Prop) K : gram ok K -> hermitian ok K.
Proof.
  intros (fs & E) x y Hx Hy. rewrite !E by assumption. rewrite conj_lsum, map_map. f_equal. apply map_ext. intros f.
  rewrite conj_mul, (cr_conj_conj cC cC_laws). rg.
Qed.

Section NDM.
  Variables n alpha beta : nat.
  Variable p : ndm_params.
  Hypothesis HP : real_params p.

  (** the pure parts *)
  Definition pure_log (W : nat -> nat -> cpx) b a (s : nat -> cpx) : R := net n alpha W b s + fst (visible n a s).
  Lemma visible_real a s : real_opt a -> real_vec s -> isreal (visible n a s).
  Proof.
    intros Ha Hs. unfold visible. destruct a as [a|]; [|reflexivity]. apply fsum_isreal. intros i.
    apply isreal_mul; [apply (Ha a eq_refl)|apply Hs].
  Qed.
  Lemma dot_op (f : cpx -> cpx -> cpx) a sr sc : (f = radd cC \/ f = rsub cC) ->
    dot n (fun i => f (sr i) (sc i)) a = f (dot n sr a) (dot n sc a).
  Proof.
    intros [-> | ->]; unfold dot; [rewrite <- (fsum_add cC cC_laws)|rewrite <- (fsum_sub cC cC_laws)];
      apply (fsum_ext cC); intros i _; rg.
  Qed.
  Lemma pure_real W b a (sym : bool) sr sc : real_kernel W -> real_opt b -> real_opt a -> real_vec sr -> real_vec sc ->
    pure_rbm log_cosh n alpha W b a sym sr sc
    = Some ((pure_log W b a sr + (if sym then 1 else -1) * pure_log W b a sc) / 2, 0).
  Proof.
    intros HW Hb Ha Hr Hc. unfold pure_rbm. rewrite !hidden_real by assumption. unfold pure_log, visible.
    destruct a as [a|].
    - rewrite dot_op by (destruct sym; auto). rewrite !dot_visible.
      rewrite (isreal_eta _ (visible_real (Some a) sr Ha Hr)), (isreal_eta _ (visible_real (Some a) sc Ha Hc)).
      unfold visible. destruct sym; cbn [lscale ladd option_map cC radd rmul rsub fst snd]; f_equal; f_equal; field.
    - destruct sym; cbn [lscale ladd option_map cC radd rmul rsub fst snd]; f_equal; f_equal; field.
  Qed.

  (** the mixed part *)
  Definition unit_in (j : nat) (s : nat -> cpx) : cpx :=
    (fst (theta n (m_symm p) (m_bias p) s j) / 2, fst (theta n (m_asymm p) None s j) / 2).
  Lemma half_theta W sr sc j (f : cpx -> cpx -> cpx) : (f = radd cC \/ f = rsub cC) ->
    dense n W None (fun i => rscal (1/2) (f (sr i) (sc i))) j
    = rscal (1/2) (f (theta n W None sr j) (theta n W None sc j)).
  Proof.
    intros Hf. rewrite dense_theta. unfold theta. rewrite !rscal_emb.
    replace (f (fsum cC n (fun i => (W i j * sr i)%C) + (0, 0))%C (fsum cC n (fun i => (W i j * sc i)%C) + (0, 0))%C)
      with (f (fsum cC n (fun i => (W i j * sr i)%C)) (fsum cC n (fun i => (W i j * sc i)%C))).
    2:{ f_equal; change (0, 0) with (r0 cC); rg. }
    rewrite <- (fsum_scal cC cC_laws) || idtac.
    transitivity (emb (1/2) * fsum cC n (fun i => f (W i j * sr i) (W i j * sc i)))%C.
    - rewrite <- (fsum_scal cC cC_laws). change (0, 0) with (r0 cC).
      replace (fsum cC n (fun i => (W i j * rscal (1 / 2) (f (sr i) (sc i)))%C) + r0 cC)%C
        with (fsum cC n (fun i => (W i j * rscal (1 / 2) (f (sr i) (sc i)))%C)) by rg.
      apply (fsum_ext cC). intros i _. rewrite rscal_emb. destruct Hf as [-> | ->]; rg.
    - f_equal. destruct Hf as [-> | ->]; [rewrite <- (fsum_add cC cC_laws)|rewrite <- (fsum_sub cC cC_laws)]; reflexivity.
  Qed.
  Lemma mixed_amplitude sr sc : real_vec sr -> real_vec sc ->
    amplitude (mixed_rbm log_cosh n beta (m_symm p) (m_asymm p) (m_bias p) sr sc)
    = cprod beta (fun j => ccosh (unit_in j sr + conj (unit_in j sc))%C).
  Proof.
    intros Hr Hc. destruct HP as (_ & _ & _ & _ & _ & _ & HS & HA & HB).
    unfold mixed_rbm. rewrite amplitude_sum. apply cprod_ext. intros j _. rewrite log_cosh_amplitude. f_equal.
    rewrite !half_theta by auto.
    assert (N : real_opt None) by (intros b E; discriminate).
    pose proof (theta_real n _ None sr j HS N Hr) as E1. pose proof (theta_real n _ None sc j HS N Hc) as E2.
    pose proof (theta_real n _ None sr j HA N Hr) as E3. pose proof (theta_real n _ None sc j HA N Hc) as E4.
    unfold unit_in.
    assert (EB : forall s, theta n (m_symm p) (m_bias p) s j
      = (theta n (m_symm p) None s j + match m_bias p with None => r0 cC | Some b => b j end)%C).
    { intros s. unfold theta. change (0, 0) with (r0 cC). destruct (m_bias p); rg. }
    rewrite !EB. clear EB. unfold isreal in *.
    destruct (theta n (m_symm p) None sr j) as [t1 t1'], (theta n (m_symm p) None sc j) as [t2 t2'],
      (theta n (m_asymm p) None sr j) as [t3 t3'], (theta n (m_asymm p) None sc j) as [t4 t4'].
    cbn [snd] in E1, E2, E3, E4. subst t1' t2' t3' t4'.
    destruct (m_bias p) as [b|].
    - pose proof (HB b eq_refl j) as E5. unfold isreal in E5. destruct (b j) as [t5 t5']. cbn [snd] in E5. subst t5'.
      unfold rscal. cpx; field.
    - unfold rscal. cpx; field.
  Qed.

  Definition pure_factor (s : nat -> cpx) : cpx :=
    cexp (pure_log (s_kernel p) (s_hidden p) (s_visible p) s / 2, pure_log (a_kernel p) (a_hidden p) (a_visible p) s / 2).
  Definition rho (sr sc : nat -> cpx) : cpx := amplitude (ndm log_cosh n alpha beta p sr sc).
  Lemma rho_is sr sc : real_vec sr -> real_vec sc ->
    rho sr sc = (pure_factor sr * conj (pure_factor sc) * cprod beta (fun j => ccosh (unit_in j sr + conj (unit_in j sc))%C))%C.
  Proof.
    intros Hr Hc. destruct HP as (H1 & H2 & H3 & H4 & H5 & H6 & _). unfold rho, ndm.
    rewrite !amplitude_ladd, mixed_amplitude, !pure_real by assumption. f_equal.
    cbn [amplitude lscale option_map]. unfold pure_factor. rewrite <- cexp_conj, <- !cexp_mul. f_equal. cpx; field.
  Qed.
  Lemma ccosh_gram (u : (nat -> cpx) -> cpx) : gram real_vec (fun x y => ccosh (u x + conj (u y))%C).
  Proof.
    apply (gram_ext real_vec (fun x y => rscal (1/2) (cexp (u x) * conj (cexp (u y)) + cexp (ropp cC (u x)) * conj (cexp (ropp cC (u y))))%C)).
    - intros x y _ _. unfold ccosh. f_equal. rewrite <- !cexp_conj, <- !cexp_mul. f_equal. f_equal. cpx; rg.
    - apply gram_scale; [lra|]. apply gram_add; [apply (gram_one real_vec (fun x => cexp (u x)))|
        apply (gram_one real_vec (fun x => cexp (ropp cC (u x))))].
  Qed.
  Lemma rho_gram : gram real_vec rho.
  Proof.
    apply (gram_ext real_vec (fun x y => (pure_factor x * conj (pure_factor y) * cprod beta (fun j => ccosh (unit_in j x + conj (unit_in j y))%C))%C)).
    - intros x y Hx Hy. symmetry. apply rho_is; assumption.
    - apply gram_mul; [apply gram_one|]. apply gram_prod. intros j _. apply ccosh_gram.
  Qed.
  Lemma ndm_psd : positive_semidefinite real_vec rho.
  Proof. apply gram_psd, rho_gram. Qed.
  Lemma ndm_hermitian : hermitian real_vec rho.
  Proof. apply gram_hermitian, rho_gram. Qed.
  Lemma ccosh_real x : ccosh (x, 0) = emb (cosh x).
  Proof.
    unfold ccosh. change (ropp cC (x, 0)) with ((- x, - 0) : cpx). replace (- 0) with 0 by rg. rewrite !cexp_real.
    unfold rscal, emb, cosh. cbn [cC radd fst snd]. f_equal; field.
  Qed.
  Lemma cprod_real m f : cprod m (fun j => emb (f j)) = emb (rprod m f).
  Proof. induction m as [|m IH]; cbn [cprod rprod]; [reflexivity|]. rewrite IH, emb_mul. reflexivity. Qed.
  Lemma rprod_pos m f : (forall j, 0 < f j) -> 0 < rprod m f.
  Proof. intros H. induction m as [|m IH]; cbn [rprod]; [lra|]. apply Rmult_lt_0_compat; auto. Qed.
  Lemma ndm_diagonal s : real_vec s -> 0 < fst (rho s s) /\ snd (rho s s) = 0.
  Proof.
    intros Hs. rewrite rho_is by assumption.
    rewrite (cprod_ext _ _ (fun j => emb (cosh (2 * fst (unit_in j s))))).
    2:{ intros j _. rewrite <- ccosh_real. f_equal. cpx; rg. }
    rewrite cprod_real. set (w := rprod _ _). assert (0 < w) by (apply rprod_pos; intros; apply cosh_pos).
    assert (E : (pure_factor s * conj (pure_factor s))%C = emb (cnorm2 (pure_factor s))).
    { rewrite cnorm2_conj. rg. }
    rewrite E, <- emb_mul. unfold emb. cbn [fst snd]. split; [|reflexivity].
    apply Rmult_lt_0_compat; [|assumption]. unfold pure_factor. rewrite cexp_norm.
    match goal with |- 0 < exp ?a * exp ?a => pose proof (exp_pos a); nra end.
  Qed.
End NDM.

(** ** what the one-hot machine can and cannot tell apart *)
Lemma one_hot_differs n k x y i : (forall i, (i < n)%nat -> (0 <= x i < Z.of_nat k)%Z) -> (i < n)%nat -> x i <> y i ->
  exists p, (p < k * n)%nat /\ one_hot k x p = (1, 0) /\ one_hot k y p = (0, 0).
Proof.
  intros Hx Hi Hd. specialize (Hx i Hi). exists (i * k + Z.to_nat (x i))%nat.
  assert (D : ((i * k + Z.to_nat (x i)) / k = i /\ (i * k + Z.to_nat (x i)) mod k = Z.to_nat (x i))%nat).
  { apply div_mod_at. lia. }
  unfold one_hot. rewrite (proj1 D), (proj2 D), Z2Nat.id by lia. rewrite Z.eqb_refl.
  destruct (Z.eqb_spec (y i) (x i)); [congruence|]. split; [nia|split; reflexivity].
Qed.
Lemma hidden_zero n m s : hidden log_cosh n m (fun _ _ => (0, 0)) None s = Some (0, 0).
Proof.
  unfold hidden. replace (map _ (seq 0 m)) with (map (fun _ : nat => Some ((0, 0) : cpx)) (seq 0 m)).
  - induction (seq 0 m) as [|j l IH]; [reflexivity|]. cbn [map lsum_log]. rewrite IH. cbn [ladd cC radd fst snd]. rewrite Rplus_0_r. reflexivity.
  - apply map_ext. intros j. unfold dense, dot. replace (fsum cC n _) with ((0, 0) : cpx).
    + rewrite log_cosh_real, cosh_0, ln_1. reflexivity.
    + symmetry. apply (fsum_zero cC cC_laws). intros i _. change (0, 0) with (r0 cC). rg.
Qed.
Lemma multival_separates n k m x y :
  (forall i, (i < n)%nat -> (0 <= x i < Z.of_nat k)%Z) -> (exists i, (i < n)%nat /\ x i <> y i) ->
  exists W hb vb, amplitude (rbm_multival log_cosh n k m W hb vb x) <> amplitude (rbm_multival log_cosh n k m W hb vb y).
Proof.
  intros Hx (i & Hi & Hd). destruct (one_hot_differs n k x y i Hx Hi Hd) as (p & Hp & E1 & E2).
  exists (fun _ _ => (0, 0)), None, (Some (fun q => if (q =? p)%nat then r1 cC else r0 cC)).
  unfold rbm_multival, rbm. rewrite !hidden_zero.
  assert (D : forall z, dot (k * n) (one_hot k z) (fun q => if (q =? p)%nat then r1 cC else r0 cC) = one_hot k z p).
  { intros z. unfold dot. rewrite <- (fsum_delta cC cC_laws (k * n) (one_hot k z) p Hp). apply (fsum_ext cC). intros q _.
    destruct (Nat.eqb_spec q p); rg. }
  rewrite !D, E1, E2. unfold ladd, amplitude. cbn [cC radd fst snd].
  replace (0 + 1) with 1 by ring. replace (0 + 0) with 0 by ring. rewrite !cexp_real. unfold emb. intros H. injection H as H.
  apply exp_inv in H. lra.
Qed.
Lemma multival_spin n k m act W hb vb :
  rbm_multival act n k m W hb vb (fun _ => -3)%Z = rbm_multival act n k m W hb vb (fun _ => -1)%Z.
Proof.
  unfold rbm_multival, rbm, hidden.
  assert (E : forall p, one_hot k (fun _ => -3)%Z p = one_hot k (fun _ => -1)%Z p).
  { intros p. unfold one_hot. destruct (Z.eqb_spec (-3) (Z.of_nat (p mod k))); [lia|].
    destruct (Z.eqb_spec (-1) (Z.of_nat (p mod k))); [lia|reflexivity]. }
  assert (D : forall a, dot (k * n) (one_hot k (fun _ => -3)%Z) a = dot (k * n) (one_hot k (fun _ => -1)%Z) a).
  { intros a. unfold dot. apply (fsum_ext cC). intros p _. rewrite E. reflexivity. }
  replace (map (fun j => act (dense (k * n) W hb (one_hot k (fun _ => -3)%Z) j)) (seq 0 m))
    with (map (fun j => act (dense (k * n) W hb (one_hot k (fun _ => -1)%Z) j)) (seq 0 m)).
  - destruct vb; [rewrite D|]; reflexivity.
  - apply map_ext. intros j. unfold dense. rewrite D. reflexivity.
Qed.
Lemma jastrow_documented : exists n W x,
  cexp (jastrow n W x) <> cexp (fsum cC n (fun i => fsum cC n (fun j => (x i * W i j * x j)%C))).
Proof.
  exists 1%nat, (fun _ _ => (1, 0)), (fun _ => (1, 0)). rewrite jastrow_main.
  cbn [fsum]. set (z := radd cC _ _). assert (E : z = (1, 0)) by (unfold z; cpx; ring).
  rewrite E. unfold rscal. cbn [fst snd]. replace (2 * 1) with 2 by ring. replace (2 * 0) with 0 by ring. rewrite !cexp_real. unfold emb.
  intros H. injection H as H. apply exp_inv in H. lra.
Qed.

Lemma rot3_group : permutation_group 3 (perms (PG [EId; EPerm [1;2;0]; EPerm [2;0;1]]%nat 3)).
Proof.
  assert (W : Forall (wf 3) (elems (PG [EId; EPerm [1;2;0]; EPerm [2;0;1]]%nat 3))).
  { repeat constructor; apply NoDup_Permutation_bis; try (repeat constructor; cbn; intuition lia); cbn; auto;
      intros a; cbn; intuition lia. }
  pose proof (table_facts (PG [EId; EPerm [1;2;0]; EPerm [2;0;1]]%nat 3) _ W eq_refl) as (_ & _ & G & P & _).
  split; [exact P|]. split; [exact G|]. repeat constructor; cbn; intuition discriminate.
Qed.
