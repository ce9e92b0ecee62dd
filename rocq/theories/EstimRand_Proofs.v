From Coq Require Import List Arith ZArith Lia Bool Reals Lra.
From Verif Require Import Base Rings ARNN_Model ARNN_Proofs ToArray_Model Estim_Model Estim_Spec Estim_Proofs
  Balance_Spec Balance_Proofs LegQsr_Model LegQsr_Spec LegQsr_Proofs LegQsr_Step LegQsr_Final LegQsr_Nll
  LegVmc_Model LegVmc_Spec LegVmc_Proofs LegVmc_Mean LegVmc_Random EstimRand_Spec.
Import ListNotations.
Open Scope R_scope.

Section Random.
  Variables (N total : nat) (log_psi : nat -> cpx) (E : experiment).
  Hypothesis HT : (0 < total)%nat.
  Hypothesis HL : sized N total E.
  Hypothesis HS : stationary N total log_psi E.
  Notation bm := (born_mean N log_psi).
  Lemma nth_lt o i : In o E -> (i < total)%nat -> (nth i (snd o) 0 < N)%nat.
  Proof.
    intros Ho Hi. pose proof (proj1 HL) as F0. rewrite Forall_forall in F0. destruct (F0 o Ho) as [L F]. rewrite Forall_forall in F.
    apply F, nth_In. lia.
  Qed.
  Lemma average_nth_total (f : nat -> R) o : In o E ->
    average f (snd o) = average (fun i => f (nth i (snd o) 0%nat)) (seq 0 total).
  Proof.
    intros Ho. pose proof (proj1 HL) as F0. rewrite Forall_forall in F0. destruct (F0 o Ho) as [L _]. rewrite (average_nth f _ 0%nat), L. reflexivity.
  Qed.
  Lemma seq_ne : seq 0 total <> [].
  Proof. destruct total; [lia|discriminate]. Qed.
  Lemma mean_average (f : nat -> R) : mean_over E (average f) = bm f.
  Proof.
    unfold mean_over.
    rewrite (rsum_ext _ (fun o => fst o * average (fun i => f (nth i (snd o) 0%nat)) (seq 0 total)))
      by (intros o Ho; rewrite average_nth_total by exact Ho; reflexivity).
    rewrite (rsum_weighted_average E (fun i w => f (nth i w 0%nat))).
    rewrite (average_ext _ (fun _ => bm f)); [apply average_cst, seq_ne|].
    intros i Hi. apply in_seq in Hi. rewrite (expected_one E (fun w => nth i w 0%nat) f N).
    - apply rsum_ext. intros s Hs. apply in_seq in Hs. rewrite HS by lia. reflexivity.
    - apply Forall_forall. intros o Ho. apply nth_lt; [exact Ho|lia].
  Qed.
  Hypothesis HU : uncorrelated N total log_psi E.
  Lemma mean_terms (a b : nat -> R) i j : (i < total)%nat -> (j < total)%nat ->
    rsum (fun o => fst o * (a (nth i (snd o) 0%nat) * b (nth j (snd o) 0%nat))) E
    = bm a * bm b + (if Nat.eq_dec j i then bm (fun s => a s * b s) - bm a * bm b else 0).
  Proof.
    intros Hi Hj. destruct (Nat.eq_dec j i) as [->|H].
    - rewrite (expected_one E (fun w => nth i w 0%nat) (fun s => a s * b s) N).
      + rewrite (rsum_ext _ (fun s => born N (psi_of log_psi) s * (a s * b s))); [unfold born_mean; ring|].
        intros s Hs. apply in_seq in Hs. rewrite HS by lia. reflexivity.
      + apply Forall_forall. intros o Ho. apply nth_lt; [exact Ho|lia].
    - rewrite (expected_pair E (fun w => nth i w 0%nat) (fun w => nth j w 0%nat) a b N).
      2:{ apply Forall_forall. intros o Ho. split; apply nth_lt; [exact Ho|lia|exact Ho|lia]. }
      rewrite (rsum_ext _ (fun s => born_mean N log_psi b * (born N (psi_of log_psi) s * a s))).
      + rewrite rsum_scal. unfold born_mean. ring.
      + intros s Hs. apply in_seq in Hs.
        rewrite (rsum_ext _ (fun t => (born N (psi_of log_psi) s * a s) * (born N (psi_of log_psi) t * b t))).
        * rewrite rsum_scal. unfold born_mean. ring.
        * intros t Ht. apply in_seq in Ht. rewrite HU by lia. ring.
  Qed.
  Lemma mean_product (a b : nat -> R) :
    mean_over E (fun l => average a l * average b l)
    = bm a * bm b + (bm (fun s => a s * b s) - bm a * bm b) / INR total.
  Proof.
    unfold mean_over. set (c := bm (fun s => a s * b s) - bm a * bm b).
    rewrite (rsum_ext _ (fun o => fst o * average (fun i => average (fun j => a (nth i (snd o) 0%nat) * b (nth j (snd o) 0%nat)) (seq 0 total)) (seq 0 total))).
    2:{ intros o Ho. rewrite !average_nth_total by exact Ho. f_equal.
        rewrite <- average_scal_r. apply average_ext. intros i _. rewrite average_scal. reflexivity. }
    rewrite (rsum_weighted_average E (fun i w => average (fun j => a (nth i w 0%nat) * b (nth j w 0%nat)) (seq 0 total))).
    rewrite (average_ext _ (fun _ => bm a * bm b + c / INR total)); [apply average_cst, seq_ne|].
    intros i Hi. apply in_seq in Hi.
    rewrite (rsum_weighted_average E (fun j w => a (nth i w 0%nat) * b (nth j w 0%nat))).
    rewrite (average_ext _ (fun j => bm a * bm b + c * (if Nat.eq_dec j i then 1 else 0))).
    - rewrite average_plus, average_cst by apply seq_ne. f_equal. unfold average. rewrite seq_length. f_equal.
      rewrite (rsum_delta Nat.eq_dec (fun _ => c)); [reflexivity|apply seq_NoDup|apply in_seq; lia].
    - intros j Hj. apply in_seq in Hj. rewrite mean_terms by lia. destruct (Nat.eq_dec j i); fold c; ring.
  Qed.
  Lemma mean_rcov (a b : nat -> R) :
    mean_over E (rcov a b) = (1 - / INR total) * (bm (fun s => a s * b s) - bm a * bm b).
  Proof.
    transitivity (mean_over E (average (fun s => a s * b s)) - mean_over E (fun l => average a l * average b l)).
    - unfold mean_over, rcov. rewrite <- rsum_minus. apply rsum_ext. intros; ring.
    - rewrite mean_average, mean_product. unfold Rdiv. ring.
  Qed.
  Lemma mean_square (a : nat -> R) : mean_over E (fun l => (average a l - bm a) * (average a l - bm a))
    = (bm (fun s => a s * a s) - bm a * bm a) / INR total.
  Proof.
    transitivity (mean_over E (fun l => average a l * average a l) + (-2 * bm a) * mean_over E (average a) + bm a * bm a * rsum fst E).
    - unfold mean_over. rewrite <- !rsum_scal, <- !rsum_plus. apply rsum_ext. intros; ring.
    - rewrite mean_average, mean_product, (proj2 HL). unfold Rdiv. ring.
  Qed.
End Random.

(** ** the estimators *)
Definition W (ws : list (R * nat)) (f : nat -> R) : R := rsum (fun p => fst p * f (snd p)) ws.
Lemma fst_wsum ws f : fst (wsum ws f) = W ws (fun s => fst (f s)).
Proof. unfold wsum, W. induction ws as [|p ws IH]; cbn [map lsum rsum]; [reflexivity|]. rewrite <- IH. reflexivity. Qed.
Lemma snd_wsum ws f : snd (wsum ws f) = W ws (fun s => snd (f s)).
Proof. unfold wsum, W. induction ws as [|p ws IH]; cbn [map lsum rsum]; [reflexivity|]. rewrite <- IH. reflexivity. Qed.
Lemma W_uniform l f : W (uniform l) f = average f l.
Proof.
  unfold W, uniform, average, Rdiv. rewrite rsum_map. cbn [fst snd]. rewrite rsum_scal. ring.
Qed.
Lemma W_full N psi f : W (full_sampling N psi) f = rsum (fun s => born N psi s * f s) (seq 0 N).
Proof. unfold W, full_sampling. rewrite rsum_map. reflexivity. Qed.
Lemma W_plus ws f g : W ws (fun s => f s + g s) = W ws f + W ws g.
Proof. unfold W. rewrite <- rsum_plus. apply rsum_ext. intros; ring. Qed.
Lemma W_scal ws c f : W ws (fun s => c * f s) = c * W ws f.
Proof. unfold W. rewrite <- rsum_scal. apply rsum_ext. intros; ring. Qed.

Notation El lp conn := (fun s => local_value lp s (conn s)).
Lemma grad_real_cov lp (conn : nat -> list (nat * cpx)) ws du dv : grad_real lp conn ws du dv
  = (W ws (fun s => du s * fst (El lp conn s)) - W ws du * W ws (fun s => fst (El lp conn s)))
    + (W ws (fun s => dv s * snd (El lp conn s)) - W ws dv * W ws (fun s => snd (El lp conn s))).
Proof.
  unfold grad_real.
  assert (Em : expect false lp conn ws = (W ws (fun s => fst (El lp conn s)), W ws (fun s => snd (El lp conn s)))).
  { apply injective_projections; cbn [fst snd]; [exact (fst_wsum ws _)|exact (snd_wsum ws _)]. }
  transitivity (W ws (fun s => fst (centered lp conn ws s) * du s + snd (centered lp conn ws s) * dv s)).
  - unfold W. set (c := centered lp conn ws). unfold cotangent. fold c. clearbody c. clear Em.
    induction ws as [|p ws IH]; cbn [map lsum rsum]; [reflexivity|].
    rewrite <- IH. cbn [cC radd fst]. f_equal. unfold vjp_rc, rscal. cbn [cC radd rmul rconj fst snd]. ring.
  - unfold centered. rewrite Em. cbn [cC rsub fst snd].
    set (mr := W ws (fun s => fst (El lp conn s))). set (mi := W ws (fun s => snd (El lp conn s))).
    transitivity (W ws (fun s => ((du s * fst (El lp conn s)) + (- mr) * du s) + ((dv s * snd (El lp conn s)) + (- mi) * dv s))).
    + unfold W. apply rsum_ext. intros; ring.
    + rewrite !W_plus, !W_scal. ring.
Qed.
Lemma expect_uniform sq lp conn l : expect sq lp conn (uniform l)
  = caverage (fun s => (if sq then local_value_squared else local_value) lp s (conn s)) l.
Proof.
  unfold expect, caverage. apply injective_projections; cbn [fst snd]; [rewrite fst_wsum|rewrite snd_wsum]; apply W_uniform.
Qed.
Lemma expect_born sq N lp conn : expect sq lp conn (full_sampling N (psi_of lp))
  = (born_mean N lp (fun s => fst ((if sq then local_value_squared else local_value) lp s (conn s))),
     born_mean N lp (fun s => snd ((if sq then local_value_squared else local_value) lp s (conn s)))).
Proof.
  unfold expect. apply injective_projections; cbn [fst snd]; [rewrite fst_wsum|rewrite snd_wsum]; apply W_full.
Qed.

Section Estim.
  Variables (N total : nat) (O : nat -> nat -> cpx) (conn : nat -> list (nat * cpx)) (lp : nat -> cpx) (E : experiment).
  Hypothesis HT : (0 < total)%nat.
  Hypothesis HC : describes N O conn.
  Hypothesis HL : sized N total E.
  Hypothesis HS : stationary N total lp E.

  Lemma random_expect sq : mean_over_c E (fun l => expect sq lp conn (uniform l))
    = expectation N (if sq then dagger_times N O else O) (psi_of lp).
  Proof.
    transitivity (expect sq lp conn (full_sampling N (psi_of lp))).
    2:{ destruct sq; [apply squared_main|apply expect_full]; exact HC. }
    rewrite expect_born. unfold mean_over_c.
    rewrite <- !(mean_average N total lp E HT HL HS).
    apply f_equal2; unfold mean_over; apply rsum_ext; intros o _; rewrite expect_uniform; reflexivity.
  Qed.
  Hypothesis HU : uncorrelated N total lp E.
  Lemma random_error : mean_over E (fun l => cnorm2 (rsub cC (expect false lp conn (uniform l)) (expectation N O (psi_of lp))))
    = quantum_variance N O (psi_of lp) / INR total.
  Proof.
    unfold quantum_variance.
    rewrite <- (squared_main N O conn lp HC), <- (expect_full N O conn lp HC), !expect_born. cbn [fst].
    transitivity (mean_over E (fun l => (average (fun s => fst (El lp conn s)) l - born_mean N lp (fun s => fst (El lp conn s)))
        * (average (fun s => fst (El lp conn s)) l - born_mean N lp (fun s => fst (El lp conn s))))
      + mean_over E (fun l => (average (fun s => snd (El lp conn s)) l - born_mean N lp (fun s => snd (El lp conn s)))
        * (average (fun s => snd (El lp conn s)) l - born_mean N lp (fun s => snd (El lp conn s))))).
    - unfold mean_over. rewrite <- rsum_plus. apply rsum_ext. intros o _. rewrite expect_uniform. unfold cnorm2, caverage.
      cbn [cC rsub fst snd]. ring.
    - rewrite !(mean_square N total lp E HT HL HS HU).
      assert (Q : born_mean N lp (fun s => fst (local_value_squared lp s (conn s)))
        = born_mean N lp (fun s => fst (El lp conn s) * fst (El lp conn s)) + born_mean N lp (fun s => snd (El lp conn s) * snd (El lp conn s))).
      { unfold born_mean. rewrite <- rsum_plus. apply rsum_ext. intros s _. unfold local_value_squared, cnorm2. cbn [fst]. ring. }
      rewrite Q. unfold cnorm2. cbn [fst snd]. unfold Rdiv. ring.
  Qed.
  Lemma random_grad du dv : mean_over E (fun l => grad_real lp conn (uniform l) du dv)
    = (1 - / INR total) * grad_real lp conn (full_sampling N (psi_of lp)) du dv.
  Proof.
    rewrite grad_real_cov, !W_full.
    transitivity (mean_over E (rcov du (fun s => fst (El lp conn s))) + mean_over E (rcov dv (fun s => snd (El lp conn s)))).
    - unfold mean_over. rewrite <- rsum_plus. apply rsum_ext. intros o _. rewrite grad_real_cov, !W_uniform. unfold rcov. ring.
    - rewrite !(mean_rcov N total lp E HT HL HS HU). unfold born_mean. ring.
  Qed.
End Estim.

Lemma random_real N total O conn (lp : R -> nat -> cpx) x (g : nat -> cpx) E :
  (0 < N)%nat -> hermitian N O -> describes N O conn ->
  (forall s, (s < N)%nat -> cderiv (fun t => lp t s) x (g s)) -> (1 < total)%nat ->
  sized N total E -> stationary N total (lp x) E -> uncorrelated N total (lp x) E ->
  derivable_pt_lim (fun t => fst (expectation N O (psi_of (lp t)))) x
    (2 * (INR total / (INR total - 1)) * mean_over E (fun l => grad_real (lp x) conn (uniform l) (fun s => fst (g s)) (fun s => snd (g s)))).
Proof.
  intros HN HO HC HD HT HL HS HU. eapply dl_eq; [exact (real_main N O conn lp x g HN HO HC HD)|].
  rewrite (random_grad N total conn (lp x) E ltac:(lia) HL HS HU).
  assert (1 < INR total) by (apply (lt_INR 1), HT). field. lra.
Qed.
Lemma random_complex N total O conn (lp : R -> R -> nat -> cpx) x y (gx gy : nat -> cpx) E :
  (0 < N)%nat -> hermitian N O -> describes N O conn ->
  (forall s, (s < N)%nat -> cderiv (fun t => lp t y s) x (gx s) /\ cderiv (fun t => lp x t s) y (gy s)) -> (1 < total)%nat ->
  sized N total E -> stationary N total (lp x y) E -> uncorrelated N total (lp x y) E ->
  exists dx dy,
    derivable_pt_lim (fun t => fst (expectation N O (psi_of (lp t y)))) x dx /\
    derivable_pt_lim (fun t => fst (expectation N O (psi_of (lp x t)))) y dy /\
    mean_over_c E (fun l => grad_complex (lp x y) conn (uniform l)
      (fun s => fst (gx s)) (fun s => fst (gy s)) (fun s => snd (gx s)) (fun s => snd (gy s)))
    = rscal ((INR total - 1) / INR total) (dx / 2, dy / 2).
Proof.
  intros HN HO HC HD HT HL HS HU. destruct (complex_main N O conn lp x y gx gy HN HO HC HD) as (dx & dy & Dx & Dy & G).
  exists dx, dy. split; [exact Dx|]. split; [exact Dy|]. rewrite <- G, !grad_complex_is. unfold mean_over_c, rscal. cbn [fst snd].
  assert (1 < INR total) by (apply (lt_INR 1), HT).
  apply f_equal2.
  - transitivity (mean_over E (fun l => grad_real (lp x y) conn (uniform l) (fun s => fst (gx s)) (fun s => snd (gx s)))).
    + unfold mean_over. apply rsum_ext. intros o _. rewrite grad_complex_is. reflexivity.
    + rewrite (random_grad N total conn (lp x y) E ltac:(lia) HL HS HU). field. lra.
  - transitivity (mean_over E (fun l => grad_real (lp x y) conn (uniform l) (fun s => fst (gy s)) (fun s => snd (gy s)))).
    + unfold mean_over. apply rsum_ext. intros o _. rewrite grad_complex_is. reflexivity.
    + rewrite (random_grad N total conn (lp x y) E ltac:(lia) HL HS HU). field. lra.
Qed.

(** ** eigenstates: no fluctuations *)
Lemma eigen_local N O conn lp e : describes N O conn -> eigenstate N O (psi_of lp) e ->
  forall s, (s < N)%nat -> local_value lp s (conn s) = e.
Proof.
  intros HC HE s Hs. pose proof (local_value_main N O conn lp s HC Hs) as L. rewrite (HE s Hs) in L.
  pose proof (psi_pos lp s) as P. unfold cnorm2 in P. revert L P. generalize (local_value lp s (conn s)) (psi_of lp s).
  intros [a b] [p q]. destruct e as [u w]. cbn [cC rmul fst snd]. intros L P. injection L as L1 L2.
  assert (A : (a - u) * (p * p + q * q) = 0)
    by (transitivity (p * ((a * p - b * q) - (u * p - w * q)) + q * ((a * q + b * p) - (u * q + w * p))); [ring|rewrite L1, L2; ring]).
  assert (B : (b - w) * (p * p + q * q) = 0)
    by (transitivity (p * ((a * q + b * p) - (u * q + w * p)) - q * ((a * p - b * q) - (u * p - w * q))); [ring|rewrite L1, L2; ring]).
  apply Rmult_integral in A. apply Rmult_integral in B. apply injective_projections; cbn [fst snd]; lra.
Qed.
Lemma average_const_in (f : nat -> R) c l : l <> [] -> (forall s, In s l -> f s = c) -> average f l = c.
Proof. intros Hl H. rewrite (average_ext f (fun _ => c)) by exact H. apply average_cst, Hl. Qed.
Lemma eigen_expect N O conn lp e l : describes N O conn -> eigenstate N O (psi_of lp) e -> l <> [] ->
  Forall (fun s => (s < N)%nat) l ->
  expect false lp conn (uniform l) = e /\ expect true lp conn (uniform l) = (cnorm2 e, 0) /\
  forall du dv, grad_real lp conn (uniform l) du dv = 0.
Proof.
  intros HC HE Hl F. rewrite Forall_forall in F.
  assert (L : forall s, In s l -> local_value lp s (conn s) = e) by (intros s Hs; apply (eigen_local N O conn lp e HC HE), F, Hs).
  split; [|split].
  - rewrite expect_uniform. unfold caverage. apply injective_projections; cbn [fst snd]; apply average_const_in; try exact Hl;
      intros s Hs; rewrite L by exact Hs; reflexivity.
  - rewrite expect_uniform. unfold caverage. apply f_equal2; apply average_const_in; try exact Hl;
      intros s Hs; unfold local_value_squared; rewrite L by exact Hs; reflexivity.
  - intros du dv. rewrite grad_real_cov, !W_uniform.
    rewrite (average_ext (fun s => du s * _) (fun s => du s * fst e)) by (intros s Hs; rewrite L by exact Hs; reflexivity).
    rewrite (average_ext (fun s => dv s * _) (fun s => dv s * snd e)) by (intros s Hs; rewrite L by exact Hs; reflexivity).
    rewrite (average_const_in (fun s => fst _) (fst e)) by (try exact Hl; intros s Hs; rewrite L by exact Hs; reflexivity).
    rewrite (average_const_in (fun s => snd _) (snd e)) by (try exact Hl; intros s Hs; rewrite L by exact Hs; reflexivity).
    rewrite !average_scal_r. ring.
Qed.

(** ** examples *)
Definition ex_E : experiment := map (fun p => (/ 4, [fst p; snd p])) [(0, 0); (0, 1); (1, 0); (1, 1)]%nat.
Lemma ex_E_sized : sized 2 2 ex_E.
Proof.
  split; [|unfold ex_E; cbn; field].
  apply Forall_forall. intros o Ho. repeat (destruct Ho as [<-|Ho]; [split; [reflexivity|repeat constructor]|]). destruct Ho.
Qed.
Lemma wit_born s : (s < 2)%nat -> born 2 (psi_of (wit_log 0)) s = / 2.
Proof.
  intros Hs. unfold born, norm2_of, psi_of, wit_log. destruct s as [|[|s]]; [| |lia];
    cbn; rewrite ?exp_0, ?cos_0, ?sin_0; unfold cnorm2; cbn [fst snd]; field.
Qed.
Lemma ex_E_stationary : stationary 2 2 (wit_log 0) ex_E.
Proof.
  intros i s Hi Hs. rewrite wit_born by exact Hs. destruct i as [|[|i]]; [| |lia]; (destruct s as [|[|s]]; [| |lia]);
    unfold probability, ex_E; cbn; field.
Qed.
Lemma ex_E_uncorrelated : uncorrelated 2 2 (wit_log 0) ex_E.
Proof.
  intros i j s t Hi Hj Hij Hs Ht. rewrite !wit_born by assumption.
  destruct i as [|[|i]]; [| |lia]; (destruct j as [|[|j]]; [| |lia]); try (exfalso; apply Hij; reflexivity);
    (destruct s as [|[|s]]; [| |lia]); (destruct t as [|[|t]]; [| |lia]);
    unfold probability, ex_E; cbn; field.
Qed.
(** the spin flip has the uniform state as eigenstate *)
Definition flip_O (s t : nat) : cpx := if (s =? t)%nat then (0, 0) else (1, 0).
Definition flip_conn (s : nat) : list (nat * cpx) := [((1 - s)%nat, (1, 0))].
Lemma flip_describes : describes 2 flip_O flip_conn.
Proof.
  intros s Hs. split; [apply Forall_cons; [cbn [fst]; lia|apply Forall_nil]|]. intros t Ht.
  destruct s as [|[|s]]; [| |lia]; (destruct t as [|[|t]]; [| |lia]); cbn; f_equal; ring.
Qed.
Lemma flip_eigen : eigenstate 2 flip_O (psi_of (wit_log 0)) (1, 0).
Proof.
  intros s Hs. destruct s as [|[|s]]; [| |lia]; unfold apply_op, flip_O, psi_of, wit_log; cbn; rewrite ?exp_0, ?cos_0, ?sin_0; f_equal; ring.
Qed.
Lemma random_expect' N total O conn lp E sq : (0 < total)%nat -> describes N O conn -> sized N total E -> stationary N total lp E ->
  mean_over_c E (fun samples => expect sq lp conn (uniform samples)) = expectation N (if sq then dagger_times N O else O) (psi_of lp).
Proof. intros HT HC HL HS. exact (random_expect N total O conn lp E HT HC HL HS sq). Qed.
