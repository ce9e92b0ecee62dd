From Coq Require Import List Arith Reals Lra Lia Ring Bool.
From Verif Require Import Base Rings ARNN_Model ARNN_Proofs ToArray_Model Estim_Model Estim_Spec Estim_Proofs JaxUtils_Model
  Lrho2_Model Lrho2_Spec.
Import ListNotations.
Open Scope R_scope.

Lemma fsum_nth {A} (d : A) (F : A -> cpx) l : fsum cC (length l) (fun i => F (nth i l d)) = lsum cC (map F l).
Proof.
  rewrite (fsum_lsum cC cC_laws). f_equal. rewrite <- (map_map (fun i => nth i l d) F). f_equal.
  clear F. induction l as [|a l IH]; [reflexivity|]. cbn [length seq map]. cbn [nth]. f_equal.
  rewrite <- seq_shift, map_map. exact IH.
Qed.
Lemma fsum_ext_c n f g : (forall i, (i < n)%nat -> f i = g i) -> fsum cC n f = fsum cC n g.
Proof. exact (fsum_ext cC n f g). Qed.
Lemma conj_lsum {A} (f : A -> cpx) l : conj (lsum cC (map f l)) = lsum cC (map (fun a => conj (f a)) l).
Proof.
  induction l as [|a l IH]; cbn [map lsum]; [cpx; ring|]. rewrite <- IH. cpx; ring.
Qed.
Lemma conj_conj (z : cpx) : conj (conj z) = z.
Proof. exact (cr_conj_conj cC cC_laws z). Qed.

(** ** the kernel *)
Definition weight (log_psi : nat -> cpx) (s : nat) (c : nat * cpx) : cpx :=
  rmul cC (snd c) (cexp (rsub cC (log_psi (fst c)) (log_psi s))).
Definition der_loc (log_psi g : nat -> cpx) (s : nat) (conn : list (nat * cpx)) : cpx :=
  lsum cC (map (fun c => weight log_psi s c * g (fst c))%C conn).

(** converting the weights changes nothing *)
Definition kept (out_complex : bool) log_psi s (conn : list (nat * cpx)) : Prop :=
  out_complex = true \/ forall c, In c conn -> snd (weight log_psi s c) = 0.
Lemma kept_type out_complex log_psi s conn c : kept out_complex log_psi s conn -> In c conn ->
  conj (to_type out_complex (conj (weight log_psi s c))) = weight log_psi s c.
Proof.
  intros [-> | K] H; cbn [to_type]; [apply conj_conj|].
  specialize (K c H). destruct out_complex; cbn [to_type]; [apply conj_conj|].
  destruct (weight log_psi s c) as [a b]. cbn [snd] in K. rewrite K. unfold to_type, re. cpx; ring.
Qed.
Lemma kernel_value_is out_complex log_psi s conn : kept out_complex log_psi s conn ->
  conj (kernel_value out_complex log_psi s conn) = local_value log_psi s conn.
Proof.
  intros K. unfold kernel_value, kernel_vec. rewrite conj_lsum. unfold local_value. f_equal.
  apply map_ext_in. intros c H. exact (kept_type out_complex log_psi s conn c K H).
Qed.
Lemma kernel_nth out_complex log_psi s conn i : kept out_complex log_psi s conn -> (i < length conn)%nat ->
  conj (nth i (kernel_vec out_complex log_psi s conn) (r0 cC)) = weight log_psi s (nth i conn (0%nat, r0 cC)).
Proof.
  intros K H. unfold kernel_vec. rewrite (nth_indep _ _ (to_type out_complex (conj (weight log_psi s (0%nat, r0 cC))))) by now rewrite map_length.
  pose proof (map_nth (fun c => to_type out_complex (conj (weight log_psi s c))) conn (0%nat, r0 cC) i) as E.
  unfold weight in E at 1 2. unfold weight at 1. rewrite E.
  apply (kept_type out_complex log_psi s conn); [exact K|]. now apply nth_In.
Qed.
Lemma mul_pair (y : cpx) a b : radd cC (fst y * a, 0) (rmul cC (0, 1) (snd y * a, 0)) = (fst y * a, snd y * a) /\
  (y * (a, b))%C = (fst y * a - snd y * b, fst y * b + snd y * a).
Proof. split; cpx; ring. Qed.

Lemma grad_rc log_psi d s conn : kept true log_psi s conn ->
  kernel_grad false false true log_psi d s conn = der_loc log_psi (fun s => (dux d s, dvx d s)) s conn.
Proof.
  intros K. unfold kernel_grad, nk_vjp, nk_vjp_rc, maybe_conj, der_loc.
  rewrite <- (fsum_nth (0%nat, r0 cC) (fun c => weight log_psi s c * (dux d (fst c), dvx d (fst c)))%C).
  transitivity (fsum cC (length conn) (fun i => (conj (nth i (kernel_vec true log_psi s conn) (r0 cC)) *
     (dux d (fst (nth i conn (0%nat, r0 cC))), dvx d (fst (nth i conn (0%nat, r0 cC)))))%C)).
  2:{ apply fsum_ext_c. intros i H. now rewrite kernel_nth. }
  set (y := fun i => conj (nth i (kernel_vec true log_psi s conn) (r0 cC))).
  change (fun i => fst (conj (nth i (kernel_vec true log_psi s conn) (r0 cC)))) with (fun i => fst (y i)).
  cbn [conn_jac ux vx]. set (a := fun i => dux d (fst (nth i conn (0%nat, r0 cC)))).
  set (b := fun i => dvx d (fst (nth i conn (0%nat, r0 cC)))).
  change (((fsum rR (length conn) (fun i => fst (y i) * a i)%R, 0) + (0, 1) * (fsum rR (length conn) (fun i => snd (y i) * a i)%R, 0) +
     (0, 1) * ((fsum rR (length conn) (fun i => fst (y i) * b i)%R, 0) + (0, 1) * (fsum rR (length conn) (fun i => snd (y i) * b i)%R, 0)))%C
     = fsum cC (length conn) (fun i => y i * (a i, b i))%C).
  clearbody y a b. induction (length conn) as [|n IH]; cbn [fsum]; [cpx; cbn [rR r0]; ring|].
  rewrite <- IH. cpx; cbn [rR radd]; ring.
Qed.
Lemma grad_rr log_psi d s conn : kept false log_psi s conn -> (forall t, dvx d t = 0) ->
  kernel_grad false false false log_psi d s conn = der_loc log_psi (fun s => (dux d s, dvx d s)) s conn.
Proof.
  intros K Z. unfold kernel_grad, nk_vjp, nk_vjp_rr, der_loc. cbn [negb].
  rewrite <- (fsum_nth (0%nat, r0 cC) (fun c => weight log_psi s c * (dux d (fst c), dvx d (fst c)))%C).
  assert (W : forall i, (i < length conn)%nat -> snd (weight log_psi s (nth i conn (0%nat, r0 cC))) = 0).
  { intros i H. destruct K as [|K]; [discriminate|]. apply K. now apply nth_In. }
  transitivity (fsum cC (length conn) (fun i =>
     (fst (conj (nth i (kernel_vec false log_psi s conn) (r0 cC))) * dux d (fst (nth i conn (0%nat, r0 cC))), 0)%R : cpx)).
  - cbn [conn_jac ux]. induction (length conn) as [|n IH]; [reflexivity|]. cbn [fsum]. rewrite <- IH by (intros; apply W; lia).
    cpx; cbn [rR radd]; ring.
  - apply fsum_ext_c. intros i H. rewrite kernel_nth by assumption. rewrite Z. specialize (W i H).
    destruct (weight log_psi s (nth i conn (0%nat, r0 cC))) as [p q]. cbn [snd] in W. rewrite W. cpx; ring.
Qed.
Lemma grad_cc log_psi d s conn : kept true log_psi s conn ->
  (forall c, In c conn -> duy d (fst c) = - dvx d (fst c) /\ dvy d (fst c) = dux d (fst c)) ->
  kernel_grad true true true log_psi d s conn = der_loc log_psi (fun s => (dux d s, dvx d s)) s conn.
Proof.
  intros K Z. unfold kernel_grad, nk_vjp, nk_vjp_cc, maybe_conj, jsum, der_loc. cbn [to_type].
  rewrite <- (fsum_nth (0%nat, r0 cC) (fun c => weight log_psi s c * (dux d (fst c), dvx d (fst c)))%C).
  apply fsum_ext_c. intros i H. rewrite kernel_nth by assumption. cbn [conn_jac ux uy vx vy].
  destruct (Z (nth i conn (0%nat, r0 cC)) (nth_In _ _ H)) as [-> ->]. unfold jax_vjp. cpx; ring.
Qed.

Lemma der_loc_main N L conn log_psi g s : describes N L conn -> (s < N)%nat ->
  (der_loc log_psi g s (conn s) * psi_of log_psi s)%C = apply_op N L (fun t => g t * psi_of log_psi t)%C s.
Proof.
  intros D Hs. destruct (D s Hs) as [F E]. unfold der_loc. rewrite lsum_scal_r.
  rewrite (map_ext _ (fun c => snd c * (g (fst c) * psi_of log_psi (fst c)))%C).
  - rewrite (group_conn N (fun t => g t * psi_of log_psi t)%C) by exact F. apply fsum_ext. intros t Ht. now rewrite E.
  - intros c. rewrite !psi_is, <- (cexp_sub (log_psi (fst c)) (log_psi s)). unfold weight. ring.
Qed.

(** ** the averages *)
Lemma cost_emb N L rho : over (braket N (apply_op N L rho) (apply_op N L rho)) (norm2_of N rho) = emb (cost N L rho).
Proof. rewrite <- norm2_emb. unfold over, cost, emb. cbn [fst snd]. f_equal. unfold Rdiv. ring. Qed.
Lemma cost_expectation N L rho : cost N L rho = fst (expectation N (dagger_times N L) rho).
Proof.
  unfold expectation. rewrite <- braket_dagger. rewrite cost_emb. reflexivity.
Qed.

Section Average.
  Variables (N : nat) (L : nat -> nat -> cpx) (conn : nat -> list (nat * cpx)) (log_psi g : nat -> cpx).
  Hypothesis HN : (0 < N)%nat.
  Hypothesis HC : describes N L conn.
  Let psi := psi_of log_psi.
  Let dpsi s := (g s * psi s)%C.
  Let W := full_sampling N psi.

  Lemma mean_cost (lrho : nat -> cpx) : (forall s, (s < N)%nat -> lrho s = local_value log_psi s (conn s)) ->
    wsum W (fun s => (cnorm2 (lrho s), 0)) = emb (cost N L psi).
  Proof.
    intros E. pose proof (expect_squared N L conn log_psi HC) as Q. rewrite cost_emb in Q.
    etransitivity; [|exact Q]. unfold expect, W. rewrite !wsum_full. f_equal. apply fsum_ext_c. intros s Hs.
    now rewrite E.
  Qed.
  Lemma mean_product (lrho dl : nat -> cpx) :
    (forall s, (s < N)%nat -> lrho s = local_value log_psi s (conn s)) ->
    (forall s, (s < N)%nat -> dl s = der_loc log_psi g s (conn s)) ->
    wsum W (fun s => conj (dl s) * lrho s)%C = over (braket N (apply_op N L dpsi) (apply_op N L psi)) (norm2_of N psi).
  Proof.
    intros E1 E2. unfold W. rewrite wsum_full. f_equal. unfold braket. apply fsum_ext_c. intros s Hs.
    rewrite E1, E2 by exact Hs. unfold psi at 2. rewrite <- (local_value_main N L conn log_psi s HC Hs).
    unfold dpsi, psi. rewrite <- (der_loc_main N L conn log_psi g s HC Hs).
    rewrite cnorm2_conj, (cr_conj_mul cC cC_laws). ring.
  Qed.
  Lemma mean_der (dl : nat -> cpx) : (forall s, (s < N)%nat -> dl s = g s) ->
    wsum W dl = mean_log_derivative N psi g.
  Proof.
    intros E. unfold W. rewrite wsum_full. unfold mean_log_derivative. f_equal. apply fsum_ext_c. intros s Hs. now rewrite E.
  Qed.
  Lemma mean_der_braket : conj (mean_log_derivative N psi g) = over (braket N dpsi psi) (norm2_of N psi).
  Proof.
    unfold mean_log_derivative. transitivity (over (conj (fsum cC N (fun s => (cnorm2 (psi s), 0) * g s)%C)) (norm2_of N psi)).
    - unfold over. cpx; [reflexivity|]. unfold Rdiv. ring.
    - f_equal. rewrite (conj_fsum cC cC_laws). unfold braket. apply fsum_ext_c. intros s _. unfold dpsi.
      change (cnorm2 (psi s), 0) with (emb (cnorm2 (psi s))). rewrite cnorm2_conj, !(cr_conj_mul cC cC_laws), conj_conj. ring.
  Qed.
End Average.

Lemma dagger_hermitian N L : hermitian N (dagger_times N L).
Proof.
  intros s t _ _. unfold dagger_times. rewrite (conj_fsum cC cC_laws). apply fsum_ext_c. intros u _.
  rewrite (cr_conj_mul cC cC_laws), conj_conj. ring.
Qed.
Lemma braket_dagger2 N O phi psi :
  braket N (apply_op N O phi) (apply_op N O psi) = braket N phi (apply_op N (dagger_times N O) psi).
Proof.
  unfold braket, apply_op, dagger_times.
  transitivity (fsum cC N (fun u => fsum cC N (fun s => fsum cC N (fun t =>
      conj (phi s) * (conj (O u s) * O u t * psi t)))))%C.
  - apply fsum_ext. intros u _. rewrite (conj_fsum cC cC_laws). rewrite <- (fsum_scal_r cC cC_laws).
    apply fsum_ext. intros s _. rewrite (cr_conj_mul cC cC_laws). rewrite <- (fsum_scal cC cC_laws).
    apply fsum_ext. intros t _. ring.
  - rewrite (fsum_swap cC cC_laws). apply fsum_ext. intros s _.
    rewrite <- (fsum_scal cC cC_laws). rewrite (fsum_swap cC cC_laws). apply fsum_ext. intros t _.
    rewrite <- (fsum_scal_r cC cC_laws), <- (fsum_scal cC cC_laws). reflexivity.
Qed.

(** the exact gradient *)
Definition force N L (psi g : nat -> cpx) : cpx :=
  (over (braket N (apply_op N L (fun s => g s * psi s)) (apply_op N L psi)) (norm2_of N psi)
   - conj (mean_log_derivative N psi g) * emb (cost N L psi))%C.
Lemma force_deriv N L (log_psi : R -> nat -> cpx) x g : (0 < N)%nat ->
  (forall s, (s < N)%nat -> cderiv (fun t => log_psi t s) x (g s)) ->
  derivable_pt_lim (fun t => cost N L (psi_of (log_psi t))) x (2 * fst (force N L (psi_of (log_psi x)) g)).
Proof.
  intros HN HD. pose proof (expectation_deriv N HN (dagger_times N L) (dagger_hermitian N L) log_psi x g HD) as E.
  refine (dl_ext _ _ _ _ (fun t => eq_sym (cost_expectation N L (psi_of (log_psi t)))) _).
  refine (dl_eq _ _ _ _ E _). unfold force. rewrite mean_der_braket, braket_dagger2, cost_expectation.
  unfold expectation, over, emb. cbn [cC rsub rmul fst snd]. unfold Rdiv. ring.
Qed.

Lemma kept_true log_psi s conn : kept true log_psi s conn.
Proof. now left. Qed.
Lemma kept_real N log_psi conn s : real_log log_psi -> real_elements N conn -> (s < N)%nat -> kept false log_psi s (conn s).
Proof.
  intros R E Hs. right. intros c Hc. unfold weight. specialize (E s c Hs Hc). destruct (snd c) as [a b]. cbn [snd] in E.
  rewrite E. unfold cexp. cbn [cC rmul rsub fst snd]. rewrite !R. replace (0 - 0) with 0 by ring. rewrite sin_0. ring.
Qed.

Definition off_by N L psi g n : cpx := (emb (INR n - 1) * conj (mean_log_derivative N psi g) * emb (cost N L psi))%C.
Lemma assemble N L conn log_psi g (lrho dl dg : nat -> cpx) n :
  (0 < N)%nat -> describes N L conn ->
  (forall s, (s < N)%nat -> lrho s = local_value log_psi s (conn s)) ->
  (forall s, (s < N)%nat -> dl s = der_loc log_psi g s (conn s)) ->
  (forall s, (s < N)%nat -> dg s = g s) ->
  let W := full_sampling N (psi_of log_psi) in
  let c := wsum W (fun s => (cnorm2 (lrho s), 0)) in
  (c, (wsum W (fun s => conj (dl s) * lrho s) - conj (rscal (INR n) (wsum W dg)) * c)%C)
  = ((cost N L (psi_of log_psi), 0), (force N L (psi_of log_psi) g - off_by N L (psi_of log_psi) g n)%C).
Proof.
  intros HN HC E1 E2 E3 W c.
  assert (EC : c = emb (cost N L (psi_of log_psi))) by (apply mean_cost with conn; assumption).
  rewrite EC. f_equal. unfold W. rewrite (mean_product N L conn log_psi g HC lrho dl E1 E2).
  rewrite (mean_der N log_psi g dg E3). unfold force, off_by.
  rewrite rscal_emb. generalize (mean_log_derivative N (psi_of log_psi) g). intros m.
  generalize (over (braket N (apply_op N L (fun s => (g s * psi_of log_psi s)%C)) (apply_op N L (psi_of log_psi))) (norm2_of N (psi_of log_psi))).
  intros b. unfold emb. cpx; ring.
Qed.

Lemma lrho2_rc N L conn log_psi g gy n : (0 < N)%nat -> describes N L conn ->
  lrho2 n false false true log_psi conn (derivs_of g gy) (full_sampling N (psi_of log_psi))
  = Ok ((cost N L (psi_of log_psi), 0), (force N L (psi_of log_psi) g - off_by N L (psi_of log_psi) g n)%C).
Proof.
  intros HN HC. unfold lrho2. cbn [nk_grad bind]. f_equal. apply assemble with conn; try assumption.
  - intros s Hs. apply kernel_value_is, kept_true.
  - intros s Hs. rewrite grad_rc by apply kept_true. unfold der_loc. apply (f_equal (lsum cC)). apply map_ext. intros c. cbn [derivs_of dux dvx].
    now destruct (g (fst c)).
  - intros s Hs. cbn [derivs_of dux dvx]. destruct (g s) as [a b]. cpx; ring.
Qed.
Lemma lrho2_rr N L conn log_psi (g : nat -> R) gy n : (0 < N)%nat -> describes N L conn ->
  real_log log_psi -> real_elements N conn ->
  lrho2 n false false false log_psi conn (derivs_of (fun s => (g s, 0)) gy) (full_sampling N (psi_of log_psi))
  = Ok ((cost N L (psi_of log_psi), 0),
     (force N L (psi_of log_psi) (fun s => (g s, 0)) - off_by N L (psi_of log_psi) (fun s => (g s, 0)%R) n)%C).
Proof.
  intros HN HC RL RE. unfold lrho2. cbn [nk_grad bind]. f_equal. apply assemble with conn; try assumption.
  - intros s Hs. apply kernel_value_is. now apply kept_real with N.
  - intros s Hs. rewrite grad_rr; [reflexivity|now apply kept_real with N|reflexivity].
  - reflexivity.
Qed.
Lemma lrho2_cc N L conn log_psi (gx gy : nat -> cpx) n : (0 < N)%nat -> describes N L conn ->
  (forall s, (s < N)%nat -> gy s = ((0, 1) * gx s)%C) ->
  lrho2 n true true true log_psi conn (derivs_of gx gy) (full_sampling N (psi_of log_psi))
  = Ok ((cost N L (psi_of log_psi), 0), (force N L (psi_of log_psi) gx - off_by N L (psi_of log_psi) gx n)%C).
Proof.
  intros HN HC HG. unfold lrho2. cbn [nk_grad bind]. f_equal. apply assemble with conn; try assumption.
  - intros s Hs. apply kernel_value_is, kept_true.
  - intros s Hs. rewrite grad_cc; [|apply kept_true|].
    + unfold der_loc. apply (f_equal (lsum cC)). apply map_ext. intros c. cbn [derivs_of dux dvx]. now destruct (gx (fst c)).
    + intros c Hc. destruct (HC s Hs) as [F _]. rewrite Forall_forall in F. specialize (F c Hc).
      cbn [derivs_of dux duy dvx dvy]. rewrite HG by exact F. cbn [cC rmul fst snd]. split; ring.
  - intros s Hs. cbn [derivs_of dux duy dvx dvy]. rewrite HG by exact Hs. destruct (gx s) as [a b]. unfold jax_vjp. cbn [cC rmul fst snd].
    f_equal; ring.
Qed.

(** ** the theorems *)
Lemma value_main N L conn log_psi d nodes any this out v g : describes N L conn ->
  out = true \/ (real_log log_psi /\ real_elements N conn) ->
  lrho2 nodes any this out log_psi conn d (full_sampling N (psi_of log_psi)) = Ok (v, g) ->
  v = (cost N L (psi_of log_psi), 0).
Proof.
  intros HC K E. unfold lrho2 in E. destruct (nk_grad any this out d 0); [|discriminate E]. cbn [bind] in E.
  injection E as <- _. apply (mean_cost N L conn log_psi HC). intros s Hs. apply kernel_value_is.
  destruct K as [-> | [A B]]; [apply kept_true|]. destruct out; [apply kept_true|]. now apply kept_real with N.
Qed.

Lemma off_by_1 N L psi g : off_by N L psi g 1 = (0, 0).
Proof. unfold off_by. cbn [INR]. replace (1 - 1) with 0 by ring. unfold emb. cpx; ring. Qed.
Lemma sub_zero (z : cpx) : (z - (0, 0))%C = z.
Proof. destruct z. cpx; ring. Qed.

Lemma ranks_main N L conn (log_psi : R -> nat -> cpx) x (g gy : nat -> cpx) nodes :
  (0 < N)%nat -> describes N L conn ->
  (forall s, (s < N)%nat -> cderiv (fun t => log_psi t s) x (g s)) ->
  exists h, steady_update nodes false false true (log_psi x) conn (derivs_of g gy) (full_sampling N (psi_of (log_psi x)))
      = Ok ((cost N L (psi_of (log_psi x)), 0), (h, 0)) /\
    derivable_pt_lim (fun t => cost N L (psi_of (log_psi t))) x
      (2 * (h + (INR nodes - 1) * fst (mean_log_derivative N (psi_of (log_psi x)) g) * cost N L (psi_of (log_psi x)))).
Proof.
  intros HN HC HD. unfold steady_update. rewrite (lrho2_rc N L conn (log_psi x) g gy nodes HN HC). cbn [bind].
  eexists. split; [reflexivity|]. refine (dl_eq _ _ _ _ (force_deriv N L log_psi x g HN HD) _).
  unfold off_by, emb. cbn [cC rsub rmul rconj fst snd]. ring.
Qed.
Lemma steady_real N L conn (log_psi : R -> nat -> cpx) x (g gy : nat -> cpx) :
  (0 < N)%nat -> describes N L conn ->
  (forall s, (s < N)%nat -> cderiv (fun t => log_psi t s) x (g s)) ->
  exists h, steady_update 1 false false true (log_psi x) conn (derivs_of g gy) (full_sampling N (psi_of (log_psi x)))
      = Ok ((cost N L (psi_of (log_psi x)), 0), (h, 0)) /\
    derivable_pt_lim (fun t => cost N L (psi_of (log_psi t))) x (2 * h).
Proof.
  intros HN HC HD. destruct (ranks_main N L conn log_psi x g gy 1 HN HC HD) as [h [E D]]. exists h. split; [exact E|].
  refine (dl_eq _ _ _ _ D _). cbn [INR]. ring.
Qed.
Lemma steady_real_output N L conn (log_psi : R -> nat -> cpx) x (g : nat -> R) gy :
  (0 < N)%nat -> describes N L conn -> (forall t, real_log (log_psi t)) -> real_elements N conn ->
  (forall s, (s < N)%nat -> cderiv (fun t => log_psi t s) x (g s, 0)) ->
  exists h, steady_update 1 false false false (log_psi x) conn (derivs_of (fun s => (g s, 0)) gy)
        (full_sampling N (psi_of (log_psi x)))
      = Ok ((cost N L (psi_of (log_psi x)), 0), (h, 0)) /\
    derivable_pt_lim (fun t => cost N L (psi_of (log_psi t))) x (2 * h).
Proof.
  intros HN HC HR HE HD. unfold steady_update. rewrite (lrho2_rr N L conn (log_psi x) g gy 1 HN HC (HR x) HE). cbn [bind].
  eexists. split; [reflexivity|]. rewrite off_by_1, sub_zero. exact (force_deriv N L log_psi x _ HN HD).
Qed.
Lemma force_scal N L psi (g gy : nat -> cpx) : (forall s, (s < N)%nat -> gy s = ((0, 1) * g s)%C) ->
  force N L psi gy = ((0, -1) * force N L psi g)%C.
Proof.
  intros H. unfold force.
  assert (A : mean_log_derivative N psi gy = ((0, 1) * mean_log_derivative N psi g)%C).
  { unfold mean_log_derivative. rewrite !over_emb.
    replace (fsum cC N (fun s => (cnorm2 (psi s), 0) * gy s)%C) with ((0, 1) * fsum cC N (fun s => (cnorm2 (psi s), 0) * g s))%C; [ring|].
    rewrite <- (fsum_scal cC cC_laws). apply fsum_ext_c. intros s Hs. rewrite H by exact Hs. ring. }
  assert (B : braket N (apply_op N L (fun s => gy s * psi s)%C) (apply_op N L psi)
     = ((0, -1) * braket N (apply_op N L (fun s => g s * psi s)%C) (apply_op N L psi))%C).
  { unfold braket. rewrite <- (fsum_scal cC cC_laws). apply fsum_ext_c. intros s Hs.
    replace (apply_op N L (fun t => gy t * psi t)%C s) with ((0, 1) * apply_op N L (fun t => g t * psi t)%C s)%C.
    - rewrite (cr_conj_mul cC cC_laws). replace (conj (0, 1)) with ((0, -1) : cpx) by (cpx; ring). ring.
    - unfold apply_op. rewrite <- (fsum_scal cC cC_laws). apply fsum_ext_c. intros t Ht. rewrite H by exact Ht. ring. }
  rewrite A, B, !over_emb. rewrite (cr_conj_mul cC cC_laws). replace (conj (0, 1)) with ((0, -1) : cpx) by (cpx; ring). ring.
Qed.
Lemma steady_complex N L conn (log_psi : R -> R -> nat -> cpx) x y (gx gy : nat -> cpx) :
  (0 < N)%nat -> describes N L conn ->
  (forall s, (s < N)%nat -> cderiv (fun t => log_psi t y s) x (gx s) /\ cderiv (fun t => log_psi x t s) y (gy s)) ->
  (forall s, (s < N)%nat -> gy s = rmul cC (0, 1) (gx s)) ->
  exists dx dy,
    derivable_pt_lim (fun t => cost N L (psi_of (log_psi t y))) x dx /\
    derivable_pt_lim (fun t => cost N L (psi_of (log_psi x t))) y dy /\
    steady_update 1 true true true (log_psi x y) conn (derivs_of gx gy) (full_sampling N (psi_of (log_psi x y)))
    = Ok ((cost N L (psi_of (log_psi x y)), 0), (dx / 2, dy / 2)).
Proof.
  intros HN HC HD HG. unfold steady_update. rewrite (lrho2_cc N L conn (log_psi x y) gx gy 1 HN HC HG). cbn [bind].
  pose proof (force_deriv N L (fun t => log_psi t y) x gx HN (fun s Hs => proj1 (HD s Hs))) as Dx.
  pose proof (force_deriv N L (fun t => log_psi x t) y gy HN (fun s Hs => proj2 (HD s Hs))) as Dy.
  eexists. eexists. split; [exact Dx|]. split; [exact Dy|].
  rewrite off_by_1, sub_zero. rewrite (force_scal N L _ gx gy HG). destruct (force N L (psi_of (log_psi x y)) gx) as [a b].
  f_equal. f_equal. cbn [cC rmul fst snd]. f_equal; field.
Qed.

Lemma kinds_main nodes this out log_psi conn d samples :
  lrho2 nodes true this false log_psi conn d samples = Err RuntimeError /\
  lrho2 nodes true false true log_psi conn d samples = Err TypeError /\
  (exists r, lrho2 nodes true true true log_psi conn d samples = Ok r) /\
  (exists r, lrho2 nodes false this out log_psi conn d samples = Ok r).
Proof.
  repeat split; try (eexists; reflexivity). destruct out; eexists; reflexivity.
Qed.

(** ** counterexamples: rho = (1, exp t), L = diag (0, 1) or diag (0, i) *)
Definition phase_O (s t : nat) : cpx := if andb (s =? 1)%nat (t =? 1)%nat then (0, 1) else (0, 0).
Definition phase_conn (s : nat) : list (nat * cpx) := [(s, phase_O s s)].
Lemma phase_describes : describes 2 phase_O phase_conn.
Proof.
  intros s Hs. split; [constructor; [exact Hs|constructor]|]. intros t Ht.
  destruct s as [|[|s]], t as [|[|t]]; try lia; unfold phase_conn, phase_O; cbn [filter fst snd Nat.eqb andb map lsum]; cpx; ring.
Qed.
Lemma wit_real t : real_log (wit_log t).
Proof. intros s. unfold wit_log. now destruct (s =? 1)%nat. Qed.
Lemma wit_real_elements : real_elements 2 wit_conn.
Proof.
  intros s c Hs [<- | []]. unfold wit_O. now destruct (andb (s =? 1)%nat (s =? 1)%nat).
Qed.
Lemma wit_norm t : norm2_of 2 (psi_of (wit_log t)) = 1 + exp (2 * t).
Proof.
  rewrite norm2_sum. cbn [fsum rR radd r0]. unfold cnorm2, psi_of, wit_log. cbn [Nat.eqb fst snd].
  rewrite ?exp_0, ?cos_0, ?sin_0. replace (2 * t) with (t + t) by ring. rewrite exp_plus. ring.
Qed.
Lemma wit_apply O t : (O = wit_O \/ O = phase_O) -> norm2_of 2 (apply_op 2 O (psi_of (wit_log t))) = exp (2 * t).
Proof.
  intros H. rewrite norm2_sum. replace (2 * t) with (t + t) by ring. rewrite exp_plus.
  destruct H as [-> | ->]; unfold cnorm2, apply_op, wit_O, phase_O, psi_of, wit_log;
    cbn [fsum rR radd r0 Nat.eqb andb fst snd cC rmul]; rewrite ?exp_0, ?cos_0, ?sin_0; ring.
Qed.
Lemma wit_cost O t : (O = wit_O \/ O = phase_O) -> cost 2 O (psi_of (wit_log t)) = exp (2 * t) / (1 + exp (2 * t)).
Proof. intros H. unfold cost. now rewrite wit_norm, wit_apply. Qed.
Lemma wit_cost_deriv O : (O = wit_O \/ O = phase_O) -> derivable_pt_lim (fun t => cost 2 O (psi_of (wit_log t))) 0 (1 / 2).
Proof.
  intros H. refine (dl_ext (fun t => fst (expectation 2 wit_O (psi_of (wit_log t)))) _ _ _ _ _).
  - intros t. now rewrite wit_expectation, wit_cost.
  - destruct (gradient_main 2 ltac:(lia) wit_O wit_hermitian wit_conn wit_describes wit_log 0 wit_g (fun s _ => wit_deriv 0 s)) as [d [D E]].
    rewrite wit_grad in E. refine (dl_eq _ _ _ _ D _). lra.
Qed.
Lemma wit_cost_0 O : (O = wit_O \/ O = phase_O) -> cost 2 O (psi_of (wit_log 0)) = 1 / 2.
Proof. intros H. rewrite wit_cost by exact H. rewrite Rmult_0_r, exp_0. lra. Qed.
Lemma wit_mean : mean_log_derivative 2 (psi_of (wit_log 0)) wit_g = (1 / 2, 0).
Proof.
  unfold mean_log_derivative. rewrite wit_norm. replace (2 * 0) with 0 by ring. unfold over, cnorm2, psi_of, wit_log, wit_g.
  cbn [fsum cC radd rmul r0 Nat.eqb fst snd]. rewrite ?exp_0, ?cos_0, ?sin_0. f_equal; field.
Qed.
Lemma dl_unique f x a b : derivable_pt_lim f x a -> derivable_pt_lim f x b -> a = b.
Proof. apply uniqueness_limite. Qed.

Lemma ranks_refuted : exists N L conn (log_psi : R -> nat -> cpx) (g : nat -> cpx),
  (0 < N)%nat /\ describes N L conn /\
  (forall s, (s < N)%nat -> cderiv (fun t => log_psi t s) 0 (g s)) /\
  derivable_pt_lim (fun t => cost N L (psi_of (log_psi t))) 0 (1 / 2) /\
  forall nodes gy, exists v,
    steady_update nodes false false true (log_psi 0) conn (derivs_of g gy) (full_sampling N (psi_of (log_psi 0)))
    = Ok (v, ((2 - INR nodes) / 4, 0)).
Proof.
  exists 2%nat, wit_O, wit_conn, wit_log, wit_g. split; [lia|]. split; [apply wit_describes|].
  split; [intros; apply wit_deriv|]. pose proof (wit_cost_deriv wit_O (or_introl eq_refl)) as D. split; [exact D|].
  intros nodes gy. destruct (ranks_main 2 wit_O wit_conn wit_log 0 wit_g gy nodes ltac:(lia) wit_describes (fun s _ => wit_deriv 0 s)) as [h [E D2]].
  pose proof (dl_unique _ _ _ _ D D2) as Q. rewrite wit_mean, (wit_cost_0 wit_O (or_introl eq_refl)) in Q. cbn [fst] in Q.
  assert (H : h = (2 - INR nodes) / 4) by lra. eexists. rewrite E, H. reflexivity.
Qed.

Ltac crunch := cbn [map lsum fsum length nth seq combine fst snd Nat.eqb andb negb cC rR radd rsub rmul rconj r0 ux uy vx vy dux duy dvx dvy bind].
Lemma phase_value_real :
  lrho2 1 false false false (wit_log 0) phase_conn (derivs_of wit_g wit_g) (full_sampling 2 (psi_of (wit_log 0)))
  = Ok ((0, 0), (0, 0)).
Proof.
  rewrite wit_sampling. unfold lrho2, nk_grad, kernel_value, kernel_grad, kernel_vec, nk_vjp, nk_vjp_rr, conn_jac, wsum, phase_conn, phase_O,
    wit_log, derivs_of, wit_g, rscal, to_type, re, cnorm2. crunch. unfold cexp. crunch.
  replace (0 - 0) with 0 by ring. rewrite ?exp_0, ?cos_0, ?sin_0. f_equal. f_equal; f_equal; cbn [INR]; field.
Qed.
Lemma real_output_refuted : exists N L conn (log_psi : R -> nat -> cpx) (g gy : nat -> cpx),
  (0 < N)%nat /\ describes N L conn /\ (forall t, real_log (log_psi t)) /\
  (forall s, (s < N)%nat -> cderiv (fun t => log_psi t s) 0 (g s)) /\
  cost N L (psi_of (log_psi 0)) = 1 / 2 /\
  derivable_pt_lim (fun t => cost N L (psi_of (log_psi t))) 0 (1 / 2) /\
  steady_update 1 false false false (log_psi 0) conn (derivs_of g gy) (full_sampling N (psi_of (log_psi 0)))
    = Ok ((0, 0), (0, 0)).
Proof.
  exists 2%nat, phase_O, phase_conn, wit_log, wit_g, wit_g. split; [lia|]. split; [apply phase_describes|].
  split; [apply wit_real|]. split; [intros; apply wit_deriv|]. split; [apply wit_cost_0; now right|].
  split; [apply wit_cost_deriv; now right|]. unfold steady_update. rewrite phase_value_real. reflexivity.
Qed.
Lemma phase_hol :
  lrho2 1 true true true (wit_log 0) phase_conn (derivs_of wit_g (fun _ => (0, 0))) (full_sampling 2 (psi_of (wit_log 0)))
  = Ok ((1 / 2, 0), (- (1 / 4), 0)).
Proof.
  rewrite wit_sampling. unfold lrho2, nk_grad, kernel_value, kernel_grad, kernel_vec, nk_vjp, nk_vjp_cc, maybe_conj, jsum, jax_vjp, conn_jac, wsum, phase_conn, phase_O,
    wit_log, derivs_of, wit_g, rscal, to_type, re, cnorm2. crunch. unfold cexp. crunch.
  replace (0 - 0) with 0 by ring. rewrite ?exp_0, ?cos_0, ?sin_0. f_equal. f_equal; f_equal; cbn [INR]; field.
Qed.
Lemma nonholomorphic_refuted : exists N L conn (log_psi : R -> R -> nat -> cpx) (gx gy : nat -> cpx),
  (0 < N)%nat /\ describes N L conn /\
  (forall s, (s < N)%nat -> cderiv (fun t => log_psi t 0 s) 0 (gx s) /\ cderiv (fun t => log_psi 0 t s) 0 (gy s)) /\
  derivable_pt_lim (fun t => cost N L (psi_of (log_psi t 0))) 0 (1 / 2) /\
  derivable_pt_lim (fun t => cost N L (psi_of (log_psi 0 t))) 0 0 /\
  exists v, steady_update 1 true true true (log_psi 0 0) conn (derivs_of gx gy) (full_sampling N (psi_of (log_psi 0 0)))
    = Ok (v, (- (1 / 4), 0)).
Proof.
  exists 2%nat, phase_O, phase_conn, (fun x y => wit_log x), wit_g, (fun _ => (0, 0)). split; [lia|]. split; [apply phase_describes|].
  split; [intros s _; split; [apply wit_deriv|apply cderiv_const]|].
  split; [apply wit_cost_deriv; now right|]. split; [apply derivable_pt_lim_const|].
  eexists. unfold steady_update. rewrite phase_hol. reflexivity.
Qed.

(** ** which estimator *)
Lemma estimates_main same experimental op e :
  expect_and_grad same None experimental op = Ok (Some e) ->
  same = true /\ estimated e = asked op /\
  (e = EHermitian -> exists superop, op = Plain true superop) /\ (e = ELrho2 -> op = SquaredOf true).
Proof.
  unfold expect_and_grad. destruct same; cbn [negb]; [|discriminate].
  destruct op as [[] b | []], experimental; intros E; injection E as <- || discriminate E;
    repeat split; try discriminate; eexists; reflexivity.
Qed.
Lemma available_main experimental op :
  (exists e, expect_and_grad true None experimental op = Ok (Some e)) \/
  (expect_and_grad true None experimental op = Err RuntimeError /\ experimental = false /\
   (op = SquaredOf false \/ exists superop, op = Plain false superop)).
Proof.
  destruct op as [[] b | []], experimental; cbn; try (left; eexists; reflexivity); right; repeat split; eauto.
Qed.
Lemma override_refuted : exists is_hermitian experimental op e,
  expect_and_grad true is_hermitian experimental op = Ok (Some e) /\ estimated e <> asked op.
Proof. exists (Some false), true, (SquaredOf true), EValue. split; [reflexivity|discriminate]. Qed.
Lemma other_space_main is_hermitian experimental op :
  expect_and_grad false is_hermitian experimental op = Ok None /\
  (forall physical, mixed_expect_and_grad false physical is_hermitian experimental op = Ok None) /\
  mixed_expect_and_grad true false is_hermitian experimental op = expect_and_grad true is_hermitian experimental op.
Proof. repeat split. now intros []. Qed.
Lemma grad_same same experimental op e :
  grad_of (expect_and_grad same) None experimental op = Ok e <-> expect_and_grad same None experimental op = Ok (Some e).
Proof.
  unfold grad_of. destruct (expect_and_grad same None experimental op) as [[e'|]|x]; cbn [bind]; split; intros E; congruence.
Qed.
Lemma grad_override_refuted : exists same is_hermitian experimental op e,
  expect_and_grad same is_hermitian experimental op = Ok (Some e) /\
  grad_of (expect_and_grad same) is_hermitian experimental op = Err RuntimeError.
Proof. exists true, (Some true), false, (Plain false false), EHermitian. split; reflexivity. Qed.
Lemma grad_other_space is_hermitian experimental op : grad_of (expect_and_grad false) is_hermitian experimental op = Err TypeError.
Proof. reflexivity. Qed.
