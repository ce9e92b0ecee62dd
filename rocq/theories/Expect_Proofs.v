From Coq Require Import List Arith Reals Permutation Lra Lia.
From Verif Require Import Base Rings ARNN_Model ARNN_Proofs ToArray_Model Estim_Model Estim_Spec Estim_Proofs Expect_Model Expect_Spec.
Import ListNotations.
Open Scope R_scope.

Lemma lsumR_app a b : lsum rR (a ++ b) = lsum rR a + lsum rR b.
Proof. exact (lsum_app rR rR_laws a b). Qed.
Lemma mean_concat ranks f : mpi_mean ranks f = local_part (concat ranks) f.
Proof.
  induction ranks as [|r l IH]; [reflexivity|].
  change (mpi_mean (r :: l) f) with (local_part r f + mpi_mean l f). rewrite IH. cbn [concat].
  unfold local_part. rewrite map_app, lsumR_app. reflexivity.
Qed.
Lemma mean_full N lp ranks f : fully_sampled N lp ranks -> mpi_mean ranks f = mean_under N lp f.
Proof.
  intros P. rewrite mean_concat. unfold local_part. rewrite (lsum_perm rR rR_laws _ _ (Permutation_map _ P)), map_map. cbn [fst snd].
  rewrite <- (fsum_lsum rR rR_laws N (fun s => exp (lp s) / fsum rR N (fun s => exp (lp s)) * f s)).
  unfold mean_under. set (Z := fsum rR N (fun s => exp (lp s))).
  transitivity (fsum rR N (fun s => rmul rR (exp (lp s) * f s) (/ Z))).
  - apply (fsum_ext rR). intros s _. cbn [rmul rR T]. unfold Rdiv. ring.
  - rewrite (fsum_scal_r rR rR_laws). reflexivity.
Qed.
Lemma bwd_sum ranks l fn dlog dfun c :
  lsum rR (map (fun r => expect_bwd ranks r fn dlog dfun c) l) = c * mpi_mean l (fun s => expect_delta ranks fn s * dlog s + dfun s).
Proof.
  unfold mpi_mean, expect_bwd. induction l as [|r l IH]; cbn [map lsum]; [cbn; ring|]. rewrite IH. cbn [radd rR T]. ring.
Qed.

Lemma deriv_fsum n (f : nat -> R -> R) x l : (forall i, (i < n)%nat -> derivable_pt_lim (f i) x (l i)) ->
  derivable_pt_lim (fun t => fsum rR n (fun i => f i t)) x (fsum rR n l).
Proof.
  induction n; intros H; cbn [fsum]; [apply derivable_pt_lim_const|].
  exact (derivable_pt_lim_plus _ _ _ _ _ (IHn (fun i Hi => H i (Nat.lt_lt_succ_r _ _ Hi))) (H n (Nat.lt_succ_diag_r n))).
Qed.
Lemma Z_pos N lp : (0 < N)%nat -> 0 < fsum rR N (fun s => exp (lp s)).
Proof.
  intros H. destruct N as [|N]; [lia|]. clear H. induction N as [|N IH].
  - cbn. rewrite Rplus_0_l. apply exp_pos.
  - change (0 < fsum rR (S N) (fun s => exp (lp s)) + exp (lp (S N))). pose proof (exp_pos (lp (S N))). lra.
Qed.

Lemma gradient_main N (lp fn : R -> nat -> R) x (dlog dfun : nat -> R) ranks : (0 < N)%nat ->
  (forall s, (s < N)%nat -> derivable_pt_lim (fun t => lp t s) x (dlog s) /\ derivable_pt_lim (fun t => fn t s) x (dfun s)) ->
  fully_sampled N (lp x) ranks ->
  derivable_pt_lim (fun t => mean_under N (lp t) (fn t)) x (lsum rR (map (fun r => expect_bwd ranks r (fn x) dlog dfun 1) ranks)).
Proof.
  intros HN D P. rewrite bwd_sum, Rmult_1_l. rewrite (mean_full N (lp x) ranks) by exact P.
  assert (De : forall s, (s < N)%nat -> derivable_pt_lim (fun t => exp (lp t s)) x (exp (lp x s) * dlog s)).
  { intros s Hs. destruct (D s Hs) as [D1 _]. exact (derivable_pt_lim_comp _ exp x _ _ D1 (derivable_pt_lim_exp (lp x s))). }
  pose proof (deriv_fsum N (fun s t => exp (lp t s)) x _ De) as DZ.
  assert (Dn : forall s, (s < N)%nat -> derivable_pt_lim (fun t => exp (lp t s) * fn t s) x (exp (lp x s) * dlog s * fn x s + exp (lp x s) * dfun s)).
  { intros s Hs. destruct (D s Hs) as [_ D2]. exact (derivable_pt_lim_mult _ _ _ _ _ (De s Hs) D2). }
  pose proof (deriv_fsum N (fun s t => exp (lp t s) * fn t s) x _ Dn) as DN.
  pose proof (Z_pos N (lp x) HN) as Zp. set (Z := fsum rR N (fun s => exp (lp x s))) in *.
  pose proof (derivable_pt_lim_div _ _ x _ _ DN DZ ltac:(unfold Z in Zp; lra)) as DD.
  unfold mean_under. unfold div_fct in DD. eapply dl_eq; [exact DD|]. cbn beta. fold Z.
  set (A := fsum rR N (fun s => exp (lp x s) * fn x s)).
  assert (E : expect_value ranks (fn x) = A / Z) by (apply mean_full, P).
  rewrite (fsum_ext rR N (fun s => exp (lp x s) * (expect_delta ranks (fn x) s * dlog s + dfun s))
    (fun s => rsub rR (exp (lp x s) * dlog s * fn x s + exp (lp x s) * dfun s) (rmul rR (A / Z) (exp (lp x s) * dlog s)))).
  - rewrite (fsum_sub rR rR_laws), (fsum_scal rR rR_laws). cbn [rsub rmul rR T].
    set (B := fsum rR N (fun s => exp (lp x s) * dlog s)). set (G := fsum rR N (fun s => exp (lp x s) * dlog s * fn x s + exp (lp x s) * dfun s)).
    unfold Rsqr. field. lra.
  - intros s Hs. unfold expect_delta. rewrite E. cbn [rsub rmul rR T]. ring.
Qed.

Lemma operator_main N (lp fn : R -> nat -> R) x (dlog dfun : nat -> R) ranks : (0 < N)%nat ->
  (forall s, (s < N)%nat -> derivable_pt_lim (fun t => lp t s) x (dlog s) /\ derivable_pt_lim (fun t => fn t s) x (dfun s)) ->
  fully_sampled N (lp x) ranks ->
  derivable_pt_lim (fun t => mean_under N (lp t) (fn t)) x (INR (length ranks) * operator_gradient ranks (fn x) dlog dfun).
Proof.
  intros HN D P. eapply dl_eq; [apply (gradient_main N lp fn x dlog dfun ranks HN D P)|].
  unfold operator_gradient. assert (L : (0 < length ranks)%nat).
  { destruct ranks as [|r l]; [|cbn; lia]. cbn in P. apply Permutation_nil in P. destruct N; [lia|discriminate]. }
  apply lt_0_INR in L. set (q := lsum rR _). cbn [T rR] in q. change (q = INR (length ranks) * (q / INR (length ranks))). field. lra.
Qed.

(** With a real wave function: the expectation value of an operator. *)
Definition relog (log_psi : nat -> R) (s : nat) : cpx := (log_psi s, 0).
Lemma real_psi log_psi s : psi_of (relog log_psi) s = emb (exp (log_psi s)).
Proof. unfold psi_of, relog, emb. cbn [fst snd]. rewrite cos_0, sin_0. f_equal; ring. Qed.
Lemma expectation_mean N O conn log_psi : (0 < N)%nat -> describes N O conn ->
  fst (expectation N O (psi_of (relog log_psi)))
  = mean_under N (fun s => 2 * log_psi s) (fun s => fst (local_value (relog log_psi) s (conn s))).
Proof.
  intros HN D. rewrite <- (expect_full N O conn (relog log_psi) D). unfold expect. rewrite wsum_full.
  unfold over. cbn [fst]. unfold mean_under. f_equal.
  - rewrite fst_fsum. apply (fsum_ext rR). intros s _. rewrite real_psi. unfold emb, cnorm2. cbn [cC rR T rmul fst snd].
    replace (2 * log_psi s) with (log_psi s + log_psi s) by ring. rewrite exp_plus. ring.
  - rewrite norm2_sum. apply (fsum_ext rR). intros s _. rewrite real_psi. unfold emb, cnorm2. cbn [rR T fst snd].
    replace (2 * log_psi s) with (log_psi s + log_psi s) by ring. rewrite exp_plus. ring.
Qed.

Lemma state_main N O conn (log_psi : R -> nat -> R) x (g dloc : nat -> R) ranks : (0 < N)%nat -> describes N O conn ->
  (forall s, (s < N)%nat -> derivable_pt_lim (fun t => log_psi t s) x (g s) /\
     derivable_pt_lim (fun t => fst (local_value (relog (log_psi t)) s (conn s))) x (dloc s)) ->
  fully_sampled N (fun s => 2 * log_psi x s) ranks ->
  derivable_pt_lim (fun t => fst (expectation N O (psi_of (relog (log_psi t))))) x
    (INR (length ranks) * operator_gradient ranks (fun s => fst (local_value (relog (log_psi x)) s (conn s))) (fun s => 2 * g s) dloc).
Proof.
  intros HN HD D P.
  apply (dl_ext (fun t => mean_under N (fun s => 2 * log_psi t s) (fun s => fst (local_value (relog (log_psi t)) s (conn s))))).
  { intros t. symmetry. apply expectation_mean; assumption. }
  apply (operator_main N (fun t s => 2 * log_psi t s)); [exact HN| |exact P].
  intros s Hs. destruct (D s Hs) as [D1 D2]. split; [|exact D2].
  exact (derivable_pt_lim_scal _ 2 _ _ D1).
Qed.

(** The two ways to compute a gradient differ by a factor 2. *)
Lemma twice_hermitian N O conn (log_psi : R -> nat -> R) x (g dloc : nat -> R) : (0 < N)%nat -> describes N O conn -> hermitian N O ->
  (forall s, (s < N)%nat -> derivable_pt_lim (fun t => log_psi t s) x (g s) /\
     derivable_pt_lim (fun t => fst (local_value (relog (log_psi t)) s (conn s))) x (dloc s)) ->
  forall samples, fully_sampled N (fun s => 2 * log_psi x s) [samples] ->
  operator_gradient [samples] (fun s => fst (local_value (relog (log_psi x)) s (conn s))) (fun s => 2 * g s) dloc
  = 2 * grad_real_rr (relog (log_psi x)) conn (full_sampling N (psi_of (relog (log_psi x)))) g.
Proof.
  intros HN HD HH D samples P.
  pose proof (state_main N O conn log_psi x g dloc [samples] HN HD D P) as A. cbn [length INR] in A. rewrite Rmult_1_l in A.
  pose proof (real_output N O conn (fun t => relog (log_psi t)) x g HN HH HD
    (fun s Hs => Logic.conj (proj1 (D s Hs)) (derivable_pt_lim_const 0 x))) as B.
  exact (uniqueness_limite _ _ _ _ A B).
Qed.

(** ** A concrete case: log_pdf 0 and t, values 0 and 1, at t = 0, one sample on each of two
    ranks *)
Definition ex_lp (t : R) (s : nat) : R := match s with O => 0 | _ => t end.
Definition ex_fn (t : R) (s : nat) : R := match s with O => 0 | _ => 1 end.
Definition ex_dlog (s : nat) : R := match s with O => 0 | _ => 1 end.
Definition ex_ranks : list rank_samples := [[(/ 2, 0%nat)]; [(/ 2, 1%nat)]].
Lemma ex_derivs s : (s < 2)%nat -> derivable_pt_lim (fun t => ex_lp t s) 0 (ex_dlog s) /\ derivable_pt_lim (fun t => ex_fn t s) 0 0.
Proof.
  intros H. destruct s as [|s]; cbn [ex_lp ex_fn ex_dlog]; split; try apply derivable_pt_lim_const. apply derivable_pt_lim_id.
Qed.
Lemma ex_full : fully_sampled 2 (ex_lp 0) ex_ranks.
Proof.
  unfold fully_sampled, ex_ranks. cbn [concat app seq map fsum ex_lp radd r0 rR]. rewrite exp_0.
  replace (1 / (0 + 1 + 1)) with (/ 2) by field. apply Permutation_refl.
Qed.
Lemma ex_gradient : operator_gradient ex_ranks (ex_fn 0) ex_dlog (fun _ => 0) = / 8.
Proof.
  unfold operator_gradient. rewrite bwd_sum. unfold expect_delta, expect_value, mpi_mean, local_part, ex_ranks.
  cbn [map lsum fst snd length ex_fn ex_dlog radd r0 rR INR]. field.
Qed.
Lemma ranks_refuted : exists N (lp fn : R -> nat -> R) x (dlog dfun : nat -> R) ranks,
  (forall s, (s < N)%nat -> derivable_pt_lim (fun t => lp t s) x (dlog s) /\ derivable_pt_lim (fun t => fn t s) x (dfun s)) /\
  fully_sampled N (lp x) ranks /\
  derivable_pt_lim (fun t => mean_under N (lp t) (fn t)) x (/ 4) /\ operator_gradient ranks (fn x) dlog dfun = / 8.
Proof.
  exists 2%nat, ex_lp, ex_fn, 0, ex_dlog, (fun _ => 0), ex_ranks. split; [exact ex_derivs|]. split; [exact ex_full|]. split; [|exact ex_gradient].
  eapply dl_eq; [apply (operator_main 2 ex_lp ex_fn 0 ex_dlog (fun _ => 0) ex_ranks); [lia|exact ex_derivs|exact ex_full]|].
  rewrite ex_gradient. cbn [length ex_ranks INR]. field.
Qed.
