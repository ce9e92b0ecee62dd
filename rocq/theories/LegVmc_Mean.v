From Coq Require Import List Arith ZArith Lia Bool Reals Lra.
From Verif Require Import Base Rings ARNN_Model ARNN_Proofs ToArray_Model Estim_Model Estim_Spec Estim_Proofs
  Balance_Spec Balance_Proofs LegQsr_Model LegQsr_Spec LegQsr_Proofs LegQsr_Step LegQsr_Final LegQsr_Nll
  LegVmc_Model LegVmc_Spec LegVmc_Proofs.
Import ListNotations.
Open Scope R_scope.

Ltac rring := match goal with |- ?a = ?b => change (@eq R a b) end; ring.
Definition rcov (a b : nat -> R) (l : list nat) : R := average (fun s => a s * b s) l - average a l * average b l.

Section Slope.
  Variables (m : qmach) (v : nat -> cpx).
  Notation np := (q_npar m).
  Notation D := (fun k s => entry (q_der m s) k).
  Notation g := (velocity m v).
  Lemma caverage_scal (f : nat -> cpx) l : caverage f l = rscal (/ INR (length l)) (lsum cC (map f l)).
  Proof. unfold caverage, average, rscal. rewrite fst_lsum_r, snd_lsum_r. unfold Rdiv. f_equal; ring. Qed.
  Lemma form_caverage (f : nat -> nat -> cpx) l : form np v (fun k => caverage (f k) l) = average (fun s => form np v (fun k => f k s)) l.
  Proof.
    rewrite (form_ext np v _ (fun k => rscal (/ INR (length l)) (lsum cC (map (fun s => f k s) l)))) by (intros; apply caverage_scal).
    rewrite form_scal, (form_lsum np v (fun s k => f k s)). unfold average, Rdiv. ring.
  Qed.
  Lemma form_conj_mul (a : nat -> cpx) c : form np v (fun k => conj (a k) * c)%C
    = fst (conj c * fsum cC np (fun k => a k * v k))%C.
  Proof.
    unfold form. f_equal. rewrite <- (fsum_scal cC cC_laws). apply fsum_ext. intros k _.
    rewrite (cr_conj_mul cC cC_laws), (cr_conj_conj cC cC_laws). ring.
  Qed.
  Lemma form_product (h : nat -> cpx) l : form np v (fun k => caverage (fun s => conj (D k s) * h s)%C l)
    = average (fun s => fst (g s) * fst (h s) + snd (g s) * snd (h s)) l.
  Proof.
    rewrite (form_caverage (fun k s => conj (D k s) * h s)%C). apply average_ext. intros s _.
    rewrite form_conj_mul. fold (velocity m v s). cbn [cC rmul rconj fst snd]. ring.
  Qed.
  Lemma form_average (c : cpx) l : form np v (fun k => conj (caverage (D k) l) * c)%C
    = average (fun s => fst (g s)) l * fst c + average (fun s => snd (g s)) l * snd c.
  Proof.
    rewrite (form_ext np v _ (fun k => caverage (fun s => conj (D k s) * c)%C l)).
    - rewrite (form_product (fun _ => c)), average_plus, !average_scal_r. reflexivity.
    - intros k _. rewrite !caverage_scal, lsum_mul_r, <- lsum_conj. unfold rscal. cpx; ring.
  Qed.
  Lemma slope_covariance (b : nat -> cpx) l : slope np (map (fun k => covariance (D k) b l) (seq 0 np)) v
    = rcov (fun s => fst (g s)) (fun s => fst (b s)) l + rcov (fun s => snd (g s)) (fun s => snd (b s)) l.
  Proof.
    rewrite slope_form. rewrite (form_ext np v _ (fun k => covariance (D k) b l)) by (intros k Hk; apply (entry_map_seq (fun k => covariance (D k) b l)); exact Hk).
    unfold covariance.
    rewrite (form_sub np v (fun k => caverage (fun s => conj (D k s) * b s)%C l) (fun k => conj (caverage (D k) l) * caverage b l)%C).
    rewrite form_product, form_average, average_plus. unfold rcov, caverage. cbn [fst snd]. ring.
  Qed.
  Lemma slope_real d : (forall k, snd (v k) = 0) -> slope np (real_part d) v = slope np d v.
  Proof.
    intros H. unfold slope. rewrite !fst_fsum. apply (fsum_ext rR). intros k _.
    assert (E : entry (real_part d) k = (fst (entry d k), 0)).
    { unfold entry, real_part. change (0, 0) with ((fun z : cpx => (fst z, 0)) (0, 0)) at 1. rewrite map_nth. reflexivity. }
    rewrite E. cbn [cC rmul rconj fst snd]. rewrite H. rring.
  Qed.
  Lemma slope_direction cplx d : direction cplx v -> slope np (if cplx then d else real_part d) v = slope np d v.
  Proof. intros [->|H]; [reflexivity|]. destruct cplx; [reflexivity|]. exact (slope_real d H). Qed.
End Slope.

Lemma covariance_slope_form m v d : slope (q_npar m) d v = form (q_npar m) v (entry d).
Proof. reflexivity. Qed.

(** ** derivatives *)
Section Derivative.
  Variables (N : nat) (O : nat -> nat -> cpx) (conn : conn_of) (m : qmach) (v : nat -> cpx) (lp : R -> nat -> cpx) (t0 : R).
  Hypothesis HN : (0 < N)%nat.
  Hypothesis HC : describes N O conn.
  Hypothesis HM : moves N m v lp t0.
  Notation psi := (psi_of (q_log m)).
  Notation g := (velocity m v).
  Notation El := (fun s => local_value (q_log m) s (conn s)).
  Notation bm := (born_mean N (q_log m)).
  Lemma psi_t0 s : (s < N)%nat -> psi_of (lp t0) s = psi s.
  Proof. intros H. rewrite !psi_is, (proj1 HM s H). reflexivity. Qed.
  Lemma norm_at : norm2_of N (psi_of (lp t0)) = norm2_of N psi.
  Proof. unfold norm2_of. f_equal. apply fsum_ext. intros s Hs. rewrite psi_t0 by exact Hs. reflexivity. Qed.
  Lemma norm_nz : norm2_of N psi <> 0.
  Proof. pose proof (norm2_pos N (q_log m) HN). lra. Qed.
  Lemma born_mean_sum (f : nat -> R) : bm f = fsum rR N (fun s => cnorm2 (psi s) * f s) / norm2_of N psi.
  Proof.
    unfold born_mean, born. rewrite fsum_rsum. unfold Rdiv. rewrite Rmult_comm, <- rsum_scal. apply rsum_ext. intros s _. ring.
  Qed.
  (** a scalar product weighted with the Born probabilities *)
  Lemma braket_born (a b : nat -> cpx) : fst (braket N (fun s => a s * psi s)%C (fun s => b s * psi s)%C) / norm2_of N psi
    = bm (fun s => fst (a s) * fst (b s) + snd (a s) * snd (b s)).
  Proof.
    rewrite born_mean_sum. f_equal. unfold braket. rewrite fst_fsum. apply (fsum_ext rR). intros s _.
    unfold cnorm2. cbn [cC rmul rconj fst snd]. rring.
  Qed.
  Lemma braket_ext (a a' b b' : nat -> cpx) : (forall s, (s < N)%nat -> a s = a' s) -> (forall s, (s < N)%nat -> b s = b' s) ->
    braket N a b = braket N a' b'.
  Proof. intros H1 H2. unfold braket. apply fsum_ext. intros s Hs. rewrite H1, H2 by exact Hs. reflexivity. Qed.
  Lemma apply_ext (O' : nat -> nat -> cpx) (b b' : nat -> cpx) s : (forall t, (t < N)%nat -> b t = b' t) -> apply_op N O' b s = apply_op N O' b' s.
  Proof. intros H. unfold apply_op. apply fsum_ext. intros t Ht. rewrite H by exact Ht. reflexivity. Qed.

  Lemma derivative_form (O' : nat -> nat -> cpx) : hermitian N O' ->
    derivable_pt_lim (fun t => fst (expectation N O' (psi_of (lp t)))) t0
      (2 * (fst (braket N (fun s => g s * psi s)%C (apply_op N O' psi)) / norm2_of N psi
            - fst (braket N psi (apply_op N O' psi)) / norm2_of N psi * bm (fun s => fst (g s)))).
  Proof.
    intros HO. pose proof (expectation_deriv N HN O' HO lp t0 g (proj2 HM)) as E. eapply dl_eq; [exact E|].
    cbv beta zeta. rewrite norm_at.
    rewrite (braket_ext (fun s => g s * psi_of (lp t0) s)%C (fun s => g s * psi s)%C (apply_op N O' (psi_of (lp t0))) (apply_op N O' psi)).
    2:{ intros s Hs. rewrite psi_t0 by exact Hs. reflexivity. }
    2:{ intros s _. apply apply_ext. intros t Ht. apply psi_t0, Ht. }
    rewrite (braket_ext (psi_of (lp t0)) psi (apply_op N O' (psi_of (lp t0))) (apply_op N O' psi)).
    2:{ intros s Hs. apply psi_t0, Hs. }
    2:{ intros s _. apply apply_ext. intros t Ht. apply psi_t0, Ht. }
    rewrite (braket_ext (fun s => g s * psi_of (lp t0) s)%C (fun s => g s * psi s)%C (psi_of (lp t0)) psi).
    2:{ intros s Hs. rewrite psi_t0 by exact Hs. reflexivity. }
    2:{ intros s Hs. apply psi_t0, Hs. }
    assert (B : fst (braket N (fun s => g s * psi s)%C psi) / norm2_of N psi = bm (fun s => fst (g s))).
    { rewrite (braket_ext _ (fun s => g s * psi s)%C psi (fun s => (1, 0) * psi s)%C); [|reflexivity|].
      - rewrite braket_born. unfold born_mean. apply rsum_ext. intros s _. cbn [fst snd]. ring.
      - intros s _. cpx; ring. }
    rewrite <- B. unfold Rdiv. ring.
  Qed.
  Lemma apply_local s : (s < N)%nat -> apply_op N O psi s = (El s * psi s)%C.
  Proof. intros Hs. symmetry. exact (local_value_main N O conn (q_log m) s HC Hs). Qed.

  Lemma energy_derivative : hermitian N O ->
    derivable_pt_lim (fun t => fst (expectation N O (psi_of (lp t)))) t0
      (2 * ((bm (fun s => fst (g s) * fst (El s)) - bm (fun s => fst (g s)) * bm (fun s => fst (El s)))
          + (bm (fun s => snd (g s) * snd (El s)) - bm (fun s => snd (g s)) * bm (fun s => snd (El s))))).
  Proof.
    intros HO. eapply dl_eq; [exact (derivative_form O HO)|].
    rewrite (braket_ext _ (fun s => g s * psi s)%C _ (fun s => El s * psi s)%C); [|reflexivity|exact apply_local].
    rewrite braket_born.
    assert (B : fst (braket N psi (apply_op N O psi)) / norm2_of N psi = bm (fun s => fst (El s))).
    { rewrite (braket_ext psi (fun s => (1, 0) * psi s)%C _ (fun s => El s * psi s)%C); [|intros s _; cpx; ring|exact apply_local].
      rewrite braket_born. unfold born_mean. apply rsum_ext. intros s _. cbn [fst snd]. ring. }
    rewrite B.
    assert (Z : bm (fun s => snd (El s)) = 0).
    { pose proof (braket_real N O HO psi) as E.
      rewrite (braket_ext psi (fun s => (1, 0) * psi s)%C _ (fun s => El s * psi s)%C) in E; [|intros s _; cpx; ring|exact apply_local].
      rewrite born_mean_sum. unfold Rdiv. apply Rmult_eq_0_compat_r.
      rewrite <- E. unfold braket. rewrite snd_fsum. apply (fsum_ext rR). intros s _. unfold cnorm2. cbn [cC rmul rconj fst snd]. rring. }
    rewrite Z. unfold born_mean. rewrite (rsum_ext (fun s => born N psi s * (_ + _)) (fun s => born N psi s * (fst (g s) * fst (El s)) + born N psi s * (snd (g s) * snd (El s)))) by (intros; ring).
    rewrite rsum_plus. ring.
  Qed.

  (** ** the square of an operator *)
  Definition dv (s : nat) : cpx := fsum cC (q_npar m) (fun k => der_local m conn s k * v k)%C.
  Lemma der_local_main k s : (s < N)%nat ->
    (der_local m conn s k * psi s)%C = apply_op N O (fun t => entry (q_der m t) k * psi t)%C s.
  Proof.
    intros Hs. destruct (HC s Hs) as [F E]. unfold der_local. rewrite lsum_scal_r.
    rewrite (map_ext _ (fun c => snd c * (entry (q_der m (fst c)) k * psi (fst c)))%C).
    - rewrite (group_conn N (fun t => entry (q_der m t) k * psi t)%C) by exact F.
      apply fsum_ext. intros t Ht. now rewrite E.
    - intros c. rewrite !psi_is, <- (cexp_sub (q_log m (fst c)) (q_log m s)). ring.
  Qed.
  Lemma dv_main s : (s < N)%nat -> (dv s * psi s)%C = apply_op N O (fun t => g t * psi t)%C s.
  Proof.
    intros Hs. unfold dv. rewrite <- (fsum_scal_r cC cC_laws).
    rewrite (fsum_ext cC (q_npar m) _ (fun k => v k * apply_op N O (fun t => entry (q_der m t) k * psi t)%C s)%C).
    2:{ intros k _. rewrite <- der_local_main by exact Hs. ring. }
    unfold apply_op. rewrite (fsum_ext cC (q_npar m) _ (fun k => fsum cC N (fun t => O s t * ((entry (q_der m t) k * v k) * psi t))))%C.
    2:{ intros k _. rewrite <- (fsum_scal cC cC_laws). apply fsum_ext. intros t _. ring. }
    rewrite (fsum_swap cC cC_laws). apply fsum_ext. intros t _. rewrite (fsum_scal cC cC_laws), (fsum_scal_r cC cC_laws). reflexivity.
  Qed.
  Lemma dagger_hermitian : hermitian N (dagger_times N O).
  Proof.
    intros s t _ _. unfold dagger_times. rewrite (conj_fsum cC cC_laws). apply fsum_ext. intros u _.
    rewrite (cr_conj_mul cC cC_laws), (cr_conj_conj cC cC_laws). ring.
  Qed.
  Lemma braket_dagger' phi chi : braket N (apply_op N O phi) (apply_op N O chi) = braket N phi (apply_op N (dagger_times N O) chi).
  Proof.
    unfold braket, apply_op, dagger_times.
    transitivity (fsum cC N (fun u => fsum cC N (fun s => fsum cC N (fun t =>
        conj (phi s) * (conj (O u s) * O u t * chi t)))))%C.
    - apply fsum_ext. intros u _. rewrite (conj_fsum cC cC_laws). rewrite <- (fsum_scal_r cC cC_laws).
      apply fsum_ext. intros s _. rewrite (cr_conj_mul cC cC_laws). rewrite <- (fsum_scal cC cC_laws).
      apply fsum_ext. intros t _. ring.
    - rewrite (fsum_swap cC cC_laws). apply fsum_ext. intros s _.
      rewrite <- (fsum_scal cC cC_laws). rewrite (fsum_swap cC cC_laws). apply fsum_ext. intros t _.
      rewrite <- (fsum_scal_r cC cC_laws), <- (fsum_scal cC cC_laws). reflexivity.
  Qed.
  Lemma square_derivative :
    derivable_pt_lim (fun t => fst (expectation N (dagger_times N O) (psi_of (lp t)))) t0
      (2 * (bm (fun s => fst (dv s) * fst (El s) + snd (dv s) * snd (El s)) - bm (fun s => fst (g s)) * bm (fun s => cnorm2 (El s)))).
  Proof.
    eapply dl_eq; [exact (derivative_form _ dagger_hermitian)|].
    rewrite <- !braket_dagger'.
    rewrite (braket_ext _ (fun s => dv s * psi s)%C _ (fun s => El s * psi s)%C); [|intros s Hs; symmetry; apply dv_main, Hs|exact apply_local].
    rewrite (braket_ext (apply_op N O psi) (fun s => El s * psi s)%C _ (fun s => El s * psi s)%C); [|exact apply_local|exact apply_local].
    rewrite !braket_born. unfold cnorm2. ring.
  Qed.
End Derivative.
