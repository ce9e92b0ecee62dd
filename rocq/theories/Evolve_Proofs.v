From Coq Require Import String List Arith Reals Lra Lia Ring ZArith Psatz FunctionalExtensionality.
From Verif Require Import Base Rings ARNN_Model ARNN_Proofs ToArray_Model Estim_Model Estim_Spec Estim_Proofs
  Evolve_Model Evolve_Spec.
Import ListNotations.
Open Scope R_scope.

Add Ring cCring2 : (cr_ring cC cC_laws).

(** ** the scalar product *)
Lemma braket_ext N a a' b b' : (forall i, (i < N)%nat -> a i = a' i) -> (forall i, (i < N)%nat -> b i = b' i) ->
  braket N a b = braket N a' b'.
Proof. intros E E'. unfold braket. apply fsum_ext. intros i Hi. now rewrite E, E'. Qed.
Lemma apply_ext N A v v' i : (forall j, (j < N)%nat -> v j = v' j) -> apply_op N A v i = apply_op N A v' i.
Proof. intros E. unfold apply_op. apply fsum_ext. intros j Hj. now rewrite E. Qed.
Lemma braket_conj N a b : braket N a b = conj (braket N b a).
Proof.
  unfold braket. rewrite (conj_fsum cC cC_laws). apply fsum_ext. intros s _.
  rewrite (cr_conj_mul cC cC_laws), (cr_conj_conj cC cC_laws). ring.
Qed.
Lemma braket_add_r N a b c : braket N a (fun i => b i + c i)%C = (braket N a b + braket N a c)%C.
Proof. unfold braket. rewrite <- (fsum_add cC cC_laws). apply fsum_ext. intros. ring. Qed.
Lemma braket_scal_r N z a b : braket N a (fun i => z * b i)%C = (z * braket N a b)%C.
Proof. unfold braket. rewrite <- (fsum_scal cC cC_laws). apply fsum_ext. intros. ring. Qed.
Lemma braket_add_l N a b c : braket N (fun i => a i + b i)%C c = (braket N a c + braket N b c)%C.
Proof.
  unfold braket. rewrite <- (fsum_add cC cC_laws). apply fsum_ext. intros.
  rewrite (cr_conj_add cC cC_laws). ring.
Qed.
Lemma braket_scal_l N z a b : braket N (fun i => z * a i)%C b = (conj z * braket N a b)%C.
Proof.
  unfold braket. rewrite <- (fsum_scal cC cC_laws). apply fsum_ext. intros.
  rewrite (cr_conj_mul cC cC_laws). ring.
Qed.
Lemma apply_add N A a b i : apply_op N A (fun i => a i + b i)%C i = (apply_op N A a i + apply_op N A b i)%C.
Proof. unfold apply_op. rewrite <- (fsum_add cC cC_laws). apply fsum_ext. intros. ring. Qed.
Lemma apply_scal N A z a i : apply_op N A (fun i => z * a i)%C i = (z * apply_op N A a i)%C.
Proof. unfold apply_op. rewrite <- (fsum_scal cC cC_laws). apply fsum_ext. intros. ring. Qed.
Lemma apply_times N A B v i : apply_op N A (apply_op N B v) i = apply_op N (times N A B) v i.
Proof.
  unfold apply_op, times.
  transitivity (fsum cC N (fun j => fsum cC N (fun k => A i j * (B j k * v k))))%C.
  - apply fsum_ext. intros j _. rewrite <- (fsum_scal cC cC_laws). reflexivity.
  - rewrite (fsum_swap cC cC_laws). apply fsum_ext. intros k _.
    rewrite <- (fsum_scal_r cC cC_laws). apply fsum_ext. intros j _. ring.
Qed.
Lemma hermitian_move N H a b : hermitian N H -> braket N (apply_op N H a) b = braket N a (apply_op N H b).
Proof. intros HH. rewrite (braket_swap N H HH a b). apply braket_conj. Qed.
Lemma mean_real N H psi : hermitian N H -> snd (mean_of N H psi) = 0.
Proof. intros HH. apply (braket_real N H HH). Qed.
Lemma mean_emb N H psi : hermitian N H -> mean_of N H psi = emb (fst (mean_of N H psi)).
Proof. intros HH. apply injective_projections; [reflexivity|]. now rewrite mean_real. Qed.

Definition unit_mat : nat -> nat -> cpx := fun i j => if (j =? i)%nat then r1 cC else r0 cC.
Lemma apply_unit N v i : (i < N)%nat -> apply_op N unit_mat v i = v i.
Proof.
  intros Hi. unfold apply_op, unit_mat.
  transitivity (fsum cC N (fun j => if (j =? i)%nat then v j else r0 cC)).
  - apply fsum_ext. intros j _. destruct (j =? i)%nat; ring.
  - apply (fsum_delta cC cC_laws N v i Hi).
Qed.
Lemma mean_unit N v : mean_of N unit_mat v = emb (norm2_of N v).
Proof. rewrite norm2_emb. unfold mean_of. apply braket_ext; [reflexivity|]. intros. now apply apply_unit. Qed.

(** ** derivatives of mean values *)
Lemma mean_deriv N O (psi : R -> nat -> cpx) x (dpsi : nat -> cpx) :
  (forall i, (i < N)%nat -> cderiv (fun s => psi s i) x (dpsi i)) ->
  cderiv (fun s => mean_of N O (psi s)) x
    (braket N dpsi (apply_op N O (psi x)) + braket N (psi x) (apply_op N O dpsi))%C.
Proof.
  intros HD. unfold mean_of, braket. rewrite <- (fsum_add cC cC_laws). apply cderiv_fsum. intros s Hs.
  apply (cderiv_mul (fun t => conj (psi t s)) (fun t => apply_op N O (psi t) s)).
  - apply cderiv_conj, HD, Hs.
  - unfold apply_op. apply cderiv_fsum. intros t Ht.
    eapply cderiv_eq; [apply (cderiv_mul (fun _ => O s t) (fun r => psi r t)); [apply cderiv_const|apply HD, Ht]|].
    ring.
Qed.

Lemma ehrenfest N H O a b psi : hermitian N H -> solution N (real_rhs N H) a b psi ->
  forall t, a <= t <= b ->
  cderiv (fun s => mean_of N O (psi s)) t (rmul cC (0, 1) (mean_of N (commutator N H O) (psi t))).
Proof.
  intros HH Sol t Ht. eapply cderiv_eq.
  - apply mean_deriv. intros i Hi. apply (Sol t i Ht Hi).
  - change (real_rhs N H (psi t)) with (fun i => (0, -1) * apply_op N H (psi t) i)%C.
    rewrite braket_scal_l.
    rewrite (braket_ext N (psi t) (psi t) (apply_op N O (fun i => (0, -1) * apply_op N H (psi t) i)%C)
               (fun i => (0, -1) * apply_op N O (apply_op N H (psi t)) i)%C) by (reflexivity || (intros; apply apply_scal)).
    rewrite braket_scal_r, hermitian_move by exact HH.
    set (p := braket N (psi t) (apply_op N H (apply_op N O (psi t)))).
    set (q := braket N (psi t) (apply_op N O (apply_op N H (psi t)))).
    assert (E : mean_of N (commutator N H O) (psi t) = (p - q)%C).
    { unfold p, q. transitivity (braket N (psi t) (fun i => apply_op N H (apply_op N O (psi t)) i + (ropp cC (r1 cC)) * apply_op N O (apply_op N H (psi t)) i)%C).
      - unfold mean_of. apply braket_ext; [reflexivity|]. intros i Hi. rewrite !apply_times. unfold apply_op, commutator.
        rewrite <- (fsum_scal cC cC_laws), <- (fsum_add cC cC_laws). apply fsum_ext. intros. ring.
      - rewrite braket_add_r, braket_scal_r. ring. }
    rewrite E. clearbody p q. cpx; ring.
Qed.

(** ** functions with derivative zero *)
Lemma zero_deriv_const (f : R -> R) a b : (forall t, a <= t <= b -> derivable_pt_lim f t 0) ->
  forall t, a <= t <= b -> f t = f a.
Proof.
  intros D t Ht. destruct (Req_dec t a) as [->|Ne]; [reflexivity|].
  destruct (MVT_cor2 f (fun _ => 0) a t) as (c & E & _); [lra|intros c Hc; apply D; lra|]. lra.
Qed.
Lemma nonpos_deriv (f : R -> R) (f' : R -> R) a b : (forall t, a <= t <= b -> derivable_pt_lim f t (f' t)) ->
  (forall t, a <= t <= b -> f' t <= 0) -> forall s t, a <= s -> s <= t -> t <= b -> f t <= f s.
Proof.
  intros D Le s t Hs Hst Ht. destruct (Req_dec s t) as [->|Ne]; [lra|].
  destruct (MVT_cor2 f f' s t) as (c & E & Hc); [lra|intros c Hc; apply D; lra|].
  specialize (Le c ltac:(lra)). nra.
Qed.

Lemma commuting_conserved N H O a b psi : hermitian N H -> commute N H O -> solution N (real_rhs N H) a b psi ->
  forall t, a <= t <= b -> mean_of N O (psi t) = mean_of N O (psi a).
Proof.
  intros HH HC Sol.
  assert (D : forall t, a <= t <= b -> cderiv (fun s => mean_of N O (psi s)) t (r0 cC)).
  { intros t Ht. eapply cderiv_eq; [apply (ehrenfest N H O a b psi HH Sol t Ht)|].
    assert (Z : mean_of N (commutator N H O) (psi t) = r0 cC).
    { unfold mean_of, braket. apply (fsum_zero cC cC_laws). intros i Hi.
      assert (E : apply_op N (commutator N H O) (psi t) i = r0 cC).
      { apply (fsum_zero cC cC_laws). intros j Hj. unfold commutator. rewrite (HC i j Hi Hj). ring. }
      rewrite E. ring. }
    rewrite Z. cpx; ring. }
  intros t Ht. apply injective_projections.
  - apply (zero_deriv_const (fun s => fst (mean_of N O (psi s))) a b); [|exact Ht]. intros s Hs. apply (D s Hs).
  - apply (zero_deriv_const (fun s => snd (mean_of N O (psi s))) a b); [|exact Ht]. intros s Hs. apply (D s Hs).
Qed.

Lemma commute_unit N H : commute N H unit_mat.
Proof.
  intros i j Hi Hj. unfold times, unit_mat.
  transitivity (H i j).
  - transitivity (fsum cC N (fun k => if (k =? j)%nat then H i k else r0 cC)).
    + apply fsum_ext. intros k _. rewrite (Nat.eqb_sym j k). destruct (k =? j)%nat; ring.
    + apply (fsum_delta cC cC_laws N (fun k => H i k) j Hj).
  - symmetry. transitivity (fsum cC N (fun k => if (k =? i)%nat then H k j else r0 cC)).
    + apply fsum_ext. intros k _. destruct (k =? i)%nat; ring.
    + apply (fsum_delta cC cC_laws N (fun k => H k j) i Hi).
Qed.

Lemma real_conserved N H a b psi : hermitian N H -> solution N (real_rhs N H) a b psi ->
  forall t, a <= t <= b -> norm2_of N (psi t) = norm2_of N (psi a) /\ estimate N H (psi t) = estimate N H (psi a).
Proof.
  intros HH Sol t Ht. split.
  - pose proof (commuting_conserved N H unit_mat a b psi HH (commute_unit N H) Sol t Ht) as E.
    rewrite !mean_unit in E. now injection E.
  - pose proof (commuting_conserved N H H a b psi HH (fun i j _ _ => eq_refl) Sol t Ht) as E.
    assert (C2 : commute N H (times N H H)).
    { intros i j _ _. unfold times.
      transitivity (fsum cC N (fun k => fsum cC N (fun l => H i k * (H k l * H l j))))%C.
      - apply fsum_ext. intros k _. rewrite <- (fsum_scal cC cC_laws). reflexivity.
      - rewrite (fsum_swap cC cC_laws). apply fsum_ext. intros l _. rewrite <- (fsum_scal_r cC cC_laws).
        apply fsum_ext. intros k _. ring. }
    pose proof (commuting_conserved N H (times N H H) a b psi HH C2 Sol t Ht) as E2.
    assert (F : forall v, estimate N H v = (mean_of N H v, fst (mean_of N (times N H H) v - mean_of N H v * mean_of N H v)%C)).
    { intros v.
      assert (T1 : vdot N v (dot N H (dot N H v)) = mean_of N (times N H H) v).
      { apply braket_ext; [reflexivity|]. intros i _. apply apply_times. }
      unfold estimate. rewrite T1. reflexivity. }
    now rewrite !F, E, E2.
Qed.

(** ** imaginary time *)
Lemma imag_deriv N H O a b psi : hermitian N H -> solution N (imaginary_rhs N H) a b psi ->
  forall t, a <= t <= b ->
  cderiv (fun s => mean_of N O (psi s)) t
    (emb (2 * fst (mean_of N H (psi t))) * mean_of N O (psi t)
     - (mean_of N (times N H O) (psi t) + mean_of N (times N O H) (psi t)))%C.
Proof.
  intros HH Sol t Ht. eapply cderiv_eq.
  - apply mean_deriv. intros i Hi. apply (Sol t i Ht Hi).
  - set (m := mean_of N H (psi t)). 
    set (v := fun i => (ropp cC (r1 cC) * apply_op N H (psi t) i + m * psi t i)%C).
    assert (E : forall i, imaginary_rhs N H (psi t) i = v i).
    { intros i. unfold imaginary_rhs, v, m. change (vdot N (psi t) (dot N H (psi t))) with (mean_of N H (psi t)).
      change (dot N H (psi t) i) with (apply_op N H (psi t) i). ring. }
    rewrite (braket_ext N _ v _ (apply_op N O (psi t))) by (auto).
    rewrite (braket_ext N (psi t) (psi t) (apply_op N O (imaginary_rhs N H (psi t)))
       (fun i => ropp cC (r1 cC) * apply_op N O (apply_op N H (psi t)) i + m * apply_op N O (psi t) i)%C).
    2: reflexivity.
    2:{ intros i _. rewrite (apply_ext N O _ v) by auto. unfold v. rewrite apply_add, !apply_scal. reflexivity. }
    unfold v. rewrite braket_add_l, !braket_scal_l, braket_add_r, !braket_scal_r, hermitian_move by exact HH.
    assert (T1 : braket N (psi t) (apply_op N H (apply_op N O (psi t))) = mean_of N (times N H O) (psi t)).
    { apply braket_ext; [reflexivity|]. intros. apply apply_times. }
    assert (T2 : braket N (psi t) (apply_op N O (apply_op N H (psi t))) = mean_of N (times N O H) (psi t)).
    { apply braket_ext; [reflexivity|]. intros. apply apply_times. }
    rewrite T1, T2. change (braket N (psi t) (apply_op N O (psi t))) with (mean_of N O (psi t)).
    assert (Em : m = emb (fst m)) by (apply mean_emb, HH). rewrite Em. 
    set (p := mean_of N (times N H O) (psi t)). set (q := mean_of N (times N O H) (psi t)).
    set (o := mean_of N O (psi t)). generalize (fst m). intros r. clearbody p q o. unfold emb. cpx; ring.
Qed.

Lemma imag_norm_deriv N H a b psi : hermitian N H -> solution N (imaginary_rhs N H) a b psi ->
  forall t, a <= t <= b ->
  derivable_pt_lim (fun s => norm2_of N (psi s)) t (2 * fst (mean_of N H (psi t)) * (norm2_of N (psi t) - 1)).
Proof.
  intros HH Sol t Ht. destruct (imag_deriv N H unit_mat a b psi HH Sol t Ht) as [D _].
  assert (E1 : mean_of N (times N H unit_mat) (psi t) = mean_of N H (psi t)).
  { unfold mean_of. apply braket_ext; [reflexivity|]. intros i Hi. rewrite <- apply_times. apply apply_ext. intros. now apply apply_unit. }
  assert (E2 : mean_of N (times N unit_mat H) (psi t) = mean_of N H (psi t)).
  { unfold mean_of. apply braket_ext; [reflexivity|]. intros i Hi. rewrite <- apply_times. now apply apply_unit. }
  rewrite E1, E2, mean_unit in D. apply (dl_ext (fun s => fst (mean_of N unit_mat (psi s)))); [|eapply dl_eq; [exact D|]].
  - intros s. rewrite mean_unit. reflexivity.
  - unfold emb. cbn [cC radd rmul rsub fst snd]. ring.
Qed.

(** a solution of y' = h y that starts at 0 stays 0 *)
Lemma gronwall (y h : R -> R) a b : a <= b ->
  (forall t, a <= t <= b -> derivable_pt_lim y t (h t * y t)) ->
  (forall t, a <= t <= b -> continuity_pt h t) -> y a = 0 -> forall t, a <= t <= b -> y t = 0.
Proof.
  intros Hab D Cont Y0 t Ht.
  destruct (continuity_ab_maj h a b Hab Cont) as (mx & Hmx & _).
  set (C := h mx). set (z := fun s => y s * y s * exp (- (2 * C) * (s - a))).
  assert (Dz : forall s, a <= s <= b -> derivable_pt_lim z s (2 * (h s - C) * (y s * y s) * exp (- (2 * C) * (s - a)))).
  { intros s Hs. unfold z.
    assert (D1 : derivable_pt_lim (fun u => y u * y u) s (h s * y s * y s + y s * (h s * y s))) by (apply (derivable_pt_lim_mult y y); apply D, Hs).
    assert (D2 : derivable_pt_lim (fun u => - (2 * C) * (u - a)) s (- (2 * C))).
    { eapply dl_eq; [apply (derivable_pt_lim_scal (fun u => u - a) (- (2 * C)) s 1)|ring].
      eapply dl_eq; [apply (derivable_pt_lim_minus id (fct_cte a)); [apply derivable_pt_lim_id|apply derivable_pt_lim_const]|ring]. }
    assert (D3 : derivable_pt_lim (fun u => exp (- (2 * C) * (u - a))) s (exp (- (2 * C) * (s - a)) * (- (2 * C)))).
    { apply (derivable_pt_lim_comp (fun u => - (2 * C) * (u - a)) exp); [exact D2|apply derivable_pt_lim_exp]. }
    eapply dl_eq; [apply (derivable_pt_lim_mult (fun u => y u * y u) (fun u => exp (- (2 * C) * (u - a)))); [exact D1|exact D3]|]. ring. }
  assert (Le : z t <= z a).
  { apply (nonpos_deriv z _ a b Dz); try lra. intros s Hs. specialize (Hmx s Hs). fold C in Hmx.
    pose proof (exp_pos (- (2 * C) * (s - a))). assert (Q : 0 <= y s * y s * exp (- (2 * C) * (s - a))) by (apply Rmult_le_pos; [apply Rle_0_sqr|lra]).
    assert (h s - C <= 0) by lra. rewrite !Rmult_assoc. rewrite Rmult_assoc in Q. set (q := y s * (y s * exp (- (2 * C) * (s - a)))) in *. clearbody q. nra. }
  unfold z in Le. rewrite Y0 in Le. pose proof (exp_pos (- (2 * C) * (t - a))). 
  destruct (Req_dec (y t) 0) as [|Ne]; [assumption|]. exfalso. assert (0 < y t * y t) by nra.
  assert (0 < y t * y t * exp (- (2 * C) * (t - a))) by (apply Rmult_lt_0_compat; assumption). lra.
Qed.

Lemma imag_normalised N H a b psi : hermitian N H -> solution N (imaginary_rhs N H) a b psi -> norm2_of N (psi a) = 1 ->
  forall t, a <= t <= b -> norm2_of N (psi t) = 1.
Proof.
  intros HH Sol N1 t Ht. assert (Z : norm2_of N (psi t) - 1 = 0); [|lra].
  apply (gronwall (fun s => norm2_of N (psi s) - 1) (fun s => 2 * fst (mean_of N H (psi s))) a b); [lra| | |lra|exact Ht].
  - intros s Hs. eapply dl_eq; [apply (derivable_pt_lim_minus (fun s => norm2_of N (psi s)) (fct_cte 1));
      [apply (imag_norm_deriv N H a b psi HH Sol s Hs)|apply derivable_pt_lim_const]|]. ring.
  - intros s Hs. destruct (imag_deriv N H H a b psi HH Sol s Hs) as [D _].
    apply derivable_continuous_pt. apply (derivable_pt_scal (fun s => fst (mean_of N H (psi s))) 2). eexists. exact D.
Qed.

Lemma norm2_nonneg N v : 0 <= norm2_of N v.
Proof.
  rewrite norm2_sum. induction N; cbn [fsum]; [apply Rle_refl|]. cbn [rR radd T]. 
  assert (0 <= cnorm2 (v N)). { unfold cnorm2. nra. } lra.
Qed.

(** |(O - <O>) psi|^2 = <O^2> - <O>^2 for a normalised state *)
Lemma spread_is N O psi : hermitian N O -> norm2_of N psi = 1 ->
  spread N O psi = fst (mean_of N (times N O O) psi) - fst (mean_of N O psi) * fst (mean_of N O psi).
Proof.
  intros HO N1. unfold spread. set (m := mean_of N O psi).
  set (w := fun i => (apply_op N O psi i + ropp cC m * psi i)%C).
  assert (E : emb (norm2_of N (fun i => (apply_op N O psi i - m * psi i)%C)) = braket N w w).
  { rewrite norm2_emb. apply braket_ext; intros; unfold w; ring. }
  assert (F : braket N w w = (mean_of N (times N O O) psi - m * m)%C).
  { unfold w. rewrite braket_add_l, braket_scal_l, !braket_add_r, !braket_scal_r, hermitian_move by exact HO.
    rewrite (hermitian_move N O psi psi HO).
    assert (T1 : braket N psi (apply_op N O (apply_op N O psi)) = mean_of N (times N O O) psi).
    { apply braket_ext; [reflexivity|]. intros. apply apply_times. }
    rewrite T1. change (braket N psi (apply_op N O psi)) with m. rewrite <- norm2_emb, N1.
    assert (Em : m = emb (fst m)) by (apply mean_emb, HO). rewrite Em. generalize (fst m). intros r.
    set (p := mean_of N (times N O O) psi). clearbody p. unfold emb. cpx; ring. }
  rewrite F in E. apply (f_equal fst) in E. unfold emb in E. cbn [fst] in E. rewrite E.
  cbn [cC rsub rmul fst snd]. unfold m. rewrite (mean_real N O psi HO). ring.
Qed.

Lemma estimate_main N O psi : hermitian N O -> norm2_of N psi = 1 ->
  estimate N O psi = (expectation N O psi, spread N O psi) /\ 0 <= spread N O psi.
Proof.
  intros HO N1. split; [|apply norm2_nonneg]. rewrite (spread_is N O psi HO N1). unfold estimate.
  change (vdot N psi (dot N O psi)) with (mean_of N O psi). f_equal.
  - unfold expectation, over. rewrite N1. fold (mean_of N O psi). apply injective_projections; cbn [fst snd]; field.
  - assert (T1 : vdot N psi (dot N O (dot N O psi)) = mean_of N (times N O O) psi).
    { apply braket_ext; [reflexivity|]. intros. apply apply_times. }
    rewrite T1. cbn [cC rsub rmul fst snd]. rewrite (mean_real N O psi HO). ring.
Qed.

Lemma imag_energy N H a b psi : hermitian N H -> solution N (imaginary_rhs N H) a b psi -> norm2_of N (psi a) = 1 ->
  (forall t, a <= t <= b -> derivable_pt_lim (fun s => fst (fst (estimate N H (psi s)))) t (- (2 * spread N H (psi t)))) /\
  (forall s t, a <= s -> s <= t -> t <= b -> fst (fst (estimate N H (psi t))) <= fst (fst (estimate N H (psi s)))).
Proof.
  intros HH Sol N1.
  assert (D : forall t, a <= t <= b -> derivable_pt_lim (fun s => fst (mean_of N H (psi s))) t (- (2 * spread N H (psi t)))).
  { intros t Ht. destruct (imag_deriv N H H a b psi HH Sol t Ht) as [D _]. eapply dl_eq; [exact D|].
    rewrite (spread_is N H (psi t) HH (imag_normalised N H a b psi HH Sol N1 t Ht)).
    unfold emb. cbn [cC radd rmul rsub fst snd]. ring. }
  split; [exact D|]. apply (nonpos_deriv _ _ a b D). intros t Ht. pose proof (norm2_nonneg N (fun i => rsub cC (apply_op N H (psi t) i) (rmul cC (mean_of N H (psi t)) (psi t i)))).
  fold (spread N H (psi t)) in *. lra.
Qed.

(** ** the driver *)
Lemma loop_main flow impl : is_flow flow -> exact_steps flow impl -> forall fuel s b s',
  s_bound s = Some b -> s_status s = Running -> s_t s <= b -> solver_loop impl fuel s = Some s' ->
  s_t s <= s_t s' <= b /\ s_y s' = flow (s_t s' - s_t s) (s_y s) /\ (s_status s' = Failed \/ s_t s' = b).
Proof.
  intros [F0 FA] EX. induction fuel as [|fuel IH]; intros s b s' Hb Hs Ht HL.
  - cbn [solver_loop] in HL. rewrite Hs in HL. discriminate.
  - cbn [solver_loop] in HL. rewrite Hs in HL. unfold solver_step in HL. rewrite Hb in HL.
    destruct (Req_EM_T (s_t s) b) as [E|NE].
    + destruct fuel; cbn [solver_loop s_status] in HL; injection HL as <-; cbn [s_t s_y s_status];
        (split; [lra|split; [rewrite E, Rminus_diag_eq by reflexivity; now rewrite F0|now right]]).
    + destruct (impl (s_calls s) (s_t s) (s_y s) b) as [[t' y']|] eqn:Ei.
      * assert (Hlt : s_t s < b) by lra. destruct (EX _ _ _ _ _ _ Hlt Ei) as [Ht' Ey].
        destruct (Rle_dec b t') as [Hle|Hgt].
        -- destruct fuel; cbn [solver_loop s_status] in HL; injection HL as <-; cbn [s_t s_y s_status];
             (split; [lra|split; [exact Ey|right; lra]]).
        -- assert (Hlt' : t' <= b) by lra. destruct (IH (Solver t' y' (Some b) Running (S (s_calls s))) b s' eq_refl eq_refl Hlt' HL) as (A & B & D). cbn [s_t s_y] in A, B.
           split; [lra|split; [|exact D]]. rewrite B, Ey, <- FA. f_equal. ring.
      * destruct fuel; cbn [solver_loop s_status] in HL; injection HL as <-; cbn [s_t s_y s_status];
          (split; [lra|split; [rewrite Rminus_diag_eq by reflexivity; now rewrite F0|now left]]).
Qed.

Lemma loop_status impl fuel s s' : solver_loop impl fuel s = Some s' -> s_status s' <> Running.
Proof.
  revert s. induction fuel; intros s; cbn [solver_loop]; destruct (s_status s) eqn:E; intros H; try discriminate;
    try (injection H as <-; congruence). now apply (IHfuel (solver_step impl s)).
Qed.

Lemma advance_main flow impl fuel n d r d' : is_flow flow -> exact_steps flow impl -> 0 <= d_dt d ->
  s_y (d_solver d) = d_state d -> advance impl fuel n d = Some (r, d') ->
  (r = Ok tt /\ d_t d' = d_t d + INR n * d_dt d /\ d_state d' = flow (INR n * d_dt d) (d_state d) /\
   s_y (d_solver d') = d_state d' /\ d_dt d' = d_dt d) \/
  (r = Err TypeError /\ d_t d' = d_t d /\ d_state d' = d_state d).
Proof.
  intros FL EX Hdt Hc HA. unfold advance in HA.
  set (s := Solver (d_t d) (s_y (d_solver d)) (Some (d_t d + INR n * d_dt d)) Running (s_calls (d_solver d))) in HA.
  destruct (solver_loop impl fuel s) as [s'|] eqn:EL; [|discriminate].
  pose proof (loop_status _ _ _ _ EL) as NR.
  assert (Hle : s_t s <= d_t d + INR n * d_dt d) by (cbn [s s_t]; pose proof (pos_INR n); nra).
  destruct (loop_main flow impl FL EX fuel s (d_t d + INR n * d_dt d) s' eq_refl eq_refl Hle EL) as (A & B & C).
  cbn [s s_t s_y] in A, B.
  destruct (s_status s') eqn:ES.
  - congruence.
  - injection HA as <- <-. left. cbn [d_t d_state d_solver d_dt]. destruct C as [C|C]; [discriminate|].
    repeat split; try assumption. rewrite B, C, Hc. f_equal. ring.
  - injection HA as <- <-. right. auto.
Qed.

Lemma advances_main flow impl fuel : is_flow flow -> exact_steps flow impl -> forall ns d d', 0 <= d_dt d ->
  s_y (d_solver d) = d_state d -> advances impl fuel ns d = Some (Ok d') ->
  d_t d' = d_t d + INR (list_sum ns) * d_dt d /\ d_state d' = flow (INR (list_sum ns) * d_dt d) (d_state d).
Proof.
  intros FL EX. induction ns as [|n ns IH]; intros d d' Hdt Hc HA; cbn [advances] in HA.
  - injection HA as <-. cbn [list_sum fold_right INR]. rewrite Rmult_0_l, Rplus_0_r. split; [reflexivity|]. now rewrite (proj1 FL).
  - destruct (advance impl fuel n d) as [[[u|e] d1]|] eqn:E; try discriminate.
    destruct (advance_main flow impl fuel n d _ d1 FL EX Hdt Hc E) as [(_ & T1 & S1 & C1 & D1)|(X & _)]; [|discriminate].
    destruct (IH d1 d' ltac:(rewrite D1; exact Hdt) C1 HA) as [T2 S2]. rewrite D1 in *.
    change (list_sum (n :: ns)) with (n + list_sum ns)%nat. rewrite plus_INR, Rmult_plus_distr_r. split; [lra|].
    rewrite S2, S1. rewrite <- (proj2 FL). reflexivity.
Qed.

Lemma iter_main flow impl fuel : is_flow flow -> exact_steps flow impl -> forall k i step d l d', 0 <= d_dt d ->
  s_y (d_solver d) = d_state d -> iter impl fuel k i step d = Some (l, Ok d') ->
  l = map (fun j => ((i + j)%nat, d_t d + INR (j * step) * d_dt d, flow (INR (j * step) * d_dt d) (d_state d))) (seq 0 k) /\
  d_t d' = d_t d + INR (k * step) * d_dt d /\ d_state d' = flow (INR (k * step) * d_dt d) (d_state d).
Proof.
  intros FL EX. induction k as [|k IH]; intros i step d l d' Hdt Hc HI; cbn [iter] in HI.
  - injection HI as <- <-. cbn [seq map Nat.mul INR]. rewrite Rmult_0_l, Rplus_0_r. repeat split. now rewrite (proj1 FL).
  - destruct (advance impl fuel step d) as [[[u|e] d1]|] eqn:E; try discriminate.
    destruct (advance_main flow impl fuel step d _ d1 FL EX Hdt Hc E) as [(_ & T1 & S1 & C1 & D1)|(X & _)]; [|discriminate].
    destruct (iter impl fuel k (S i) step d1) as [[l1 r1]|] eqn:E1; [|discriminate]. injection HI as <- ->.
    destruct (IH (S i) step d1 l1 d' ltac:(rewrite D1; exact Hdt) C1 E1) as (L & T2 & S2). rewrite D1 in *.
    assert (FS : forall j, flow (INR (j * step) * d_dt d) (d_state d1) = flow (INR (S j * step) * d_dt d) (d_state d)).
    { intros j. rewrite S1, <- (proj2 FL). f_equal. cbn [Nat.mul]. rewrite plus_INR. ring. }
    assert (FT : forall j, d_t d1 + INR (j * step) * d_dt d = d_t d + INR (S j * step) * d_dt d).
    { intros j. rewrite T1. cbn [Nat.mul]. rewrite plus_INR. ring. }
    split; [|split].
    + cbn [seq map]. replace (INR (0 * step) * d_dt d) with 0 by (cbn [Nat.mul INR]; ring).
      rewrite Rplus_0_r, (proj1 FL), Nat.add_0_r. apply (f_equal (cons (i, d_t d, d_state d))).
      rewrite L, <- seq_shift, map_map. apply map_ext. intros j. rewrite FS, FT. now rewrite Nat.add_succ_comm.
    + rewrite T2. apply FT.
    + rewrite S2. apply FS.
Qed.

Lemma create_main N H initial dt t0 p m :
  match create N H initial dt t0 p m with
  | Ok d => (p = "real"%string \/ p = "imaginary"%string) /\ (m = "sparse"%string \/ m = "dense"%string) /\
            d_t d = t0 /\ d_dt d = dt /\ d_state d = initial /\ s_y (d_solver d) = d_state d
  | Err _ => ~ ((p = "real"%string \/ p = "imaginary"%string) /\ (m = "sparse"%string \/ m = "dense"%string))
  end.
Proof.
  unfold create, make_op, make_rhs.
  destruct (String.eqb_spec m "sparse"); [|destruct (String.eqb_spec m "dense"); [|destruct (String.eqb_spec m "direct")]];
  cbn [bind]; try (destruct (String.eqb_spec p "real"); [|destruct (String.eqb_spec p "imaginary")]); 
  subst; cbn [d_t d_dt d_state d_solver s_y]; try (repeat split; auto; fail); intros [[]  []]; congruence.
Qed.

(** ** what goes wrong *)
Definition shift_flow (s : R) (y : vec) : vec := fun i => (fst (y i) + s, snd (y i)).
Lemma shift_is_flow : is_flow shift_flow.
Proof. unfold is_flow, shift_flow. split; intros; apply functional_extensionality; intros i; cbn [fst snd]; cpx; ring. Qed.

(** steps of size at most 1, failing at the second call *)
Definition half_impl (fails : nat -> bool) (k : nat) (t : R) (y : vec) (b : R) : option (R * vec) :=
  if fails k then None else
  let t' := Rmin b (t + 1) in Some (t', shift_flow (t' - t) y).
Lemma half_exact fails : exact_steps shift_flow (half_impl fails).
Proof.
  intros k t y b t' y' Hb. unfold half_impl. destruct (fails k); [discriminate|]. intros E. injection E as <- <-.
  split; [|reflexivity]. unfold Rmin. destruct (Rle_dec b (t + 1)); lra.
Qed.
Definition start : driver := Driver (fun _ => (0, 0)) 1 0 0 None None (Solver 0 (fun _ => (0, 0)) None Running 0).

Ltac dec := repeat match goal with
  | |- context [Req_EM_T ?a ?b] => destruct (Req_EM_T a b); try lra
  | |- context [Rle_dec ?a ?b] => destruct (Rle_dec a b); try lra
  end.

Lemma rmin_l a b : a <= b -> Rmin a b = a. Proof. apply Rmin_left. Qed.
Lemma rmin_r a b : b <= a -> Rmin a b = b. Proof. apply Rmin_right. Qed.

(** one step of unit length *)
Lemma step_unit fails s b : s_bound s = Some b -> s_t s + 1 <= b -> fails (s_calls s) = false ->
  solver_step (half_impl fails) s =
  Solver (s_t s + 1) (shift_flow (s_t s + 1 - s_t s) (s_y s)) (Some b) (if Rle_dec b (s_t s + 1) then Finished else Running) (S (s_calls s)).
Proof.
  intros Hb Ht Hf. unfold solver_step. rewrite Hb. destruct (Req_EM_T (s_t s) b); [lra|].
  unfold half_impl. rewrite Hf, rmin_r by exact Ht. reflexivity.
Qed.
Lemma step_fail fails s b : s_bound s = Some b -> s_t s <> b -> fails (s_calls s) = true ->
  solver_step (half_impl fails) s = Solver (s_t s) (s_y s) (Some b) Failed (S (s_calls s)).
Proof.
  intros Hb Ht Hf. unfold solver_step. rewrite Hb. destruct (Req_EM_T (s_t s) b); [lra|].
  unfold half_impl. now rewrite Hf.
Qed.

Lemma loop_running impl fuel s : s_status s = Running -> solver_loop impl (S fuel) s = solver_loop impl fuel (solver_step impl s).
Proof. intros E. cbn [solver_loop]. now rewrite E. Qed.
Lemma loop_done impl fuel s : s_status s <> Running -> solver_loop impl fuel s = Some s.
Proof. intros E. destruct fuel; cbn [solver_loop]; destruct (s_status s); congruence. Qed.

(** advance(2) without failure *)
Lemma two_steps fails k y : fails k = false -> fails (S k) = false ->
  solver_loop (half_impl fails) 5 (Solver 0 y (Some (0 + INR 2 * 1)) Running k) =
  Some (Solver (0 + 1 + 1) (shift_flow (0 + 1 + 1 - (0 + 1)) (shift_flow (0 + 1 - 0) y)) (Some (0 + INR 2 * 1)) Finished (S (S k))).
Proof.
  intros F1 F2. assert (E2 : INR 2 = 2) by (cbn [INR]; lra).
  rewrite loop_running by reflexivity.
  rewrite (step_unit fails _ (0 + INR 2 * 1)) by (first [reflexivity | exact F1 | cbn [s_t]; lra]). cbn [s_t s_y s_calls].
  destruct (Rle_dec (0 + INR 2 * 1) (0 + 1)); [exfalso; lra|].
  rewrite loop_running by reflexivity.
  rewrite (step_unit fails _ (0 + INR 2 * 1)) by (first [reflexivity | exact F2 | cbn [s_t]; lra]). cbn [s_t s_y s_calls].
  destruct (Rle_dec (0 + INR 2 * 1) (0 + 1 + 1)); [|exfalso; lra].
  apply loop_done. discriminate.
Qed.
(** advance(2) failing at the second step *)
Lemma second_fails fails k y : fails k = false -> fails (S k) = true ->
  solver_loop (half_impl fails) 5 (Solver 0 y (Some (0 + INR 2 * 1)) Running k) =
  Some (Solver (0 + 1) (shift_flow (0 + 1 - 0) y) (Some (0 + INR 2 * 1)) Failed (S (S k))).
Proof.
  intros F1 F2. assert (E2 : INR 2 = 2) by (cbn [INR]; lra).
  rewrite loop_running by reflexivity.
  rewrite (step_unit fails _ (0 + INR 2 * 1)) by (first [reflexivity | exact F1 | cbn [s_t]; lra]). cbn [s_t s_y s_calls].
  destruct (Rle_dec (0 + INR 2 * 1) (0 + 1)); [exfalso; lra|].
  rewrite loop_running by reflexivity.
  rewrite (step_fail fails _ (0 + INR 2 * 1)) by (first [reflexivity | exact F2 | cbn [s_t]; lra]). cbn [s_t s_y s_calls].
  apply loop_done. discriminate.
Qed.

Lemma retry_refuted : exists flow impl fuel d d1 d2, is_flow flow /\ exact_steps flow impl /\ s_y (d_solver d) = d_state d /\
  advance impl fuel 2 d = Some (Err TypeError, d1) /\ d_t d1 = d_t d /\ d_state d1 = d_state d /\
  advance impl fuel 2 d1 = Some (Ok tt, d2) /\ d_t d2 = d_t d + INR 2 * d_dt d /\
  d_state d2 0%nat = (3, 0) /\ flow (INR 2 * d_dt d) (d_state d) 0%nat = (2, 0).
Proof.
  set (fl := fun k => (k =? 1)%nat). set (y1 := shift_flow (0 + 1 - 0) (fun _ => (0, 0))).
  set (d1 := Driver (fun _ => (0, 0)) 1 0 0 None None (Solver (0 + 1) y1 (Some (0 + INR 2 * 1)) Failed 2)).
  assert (A1 : advance (half_impl fl) 5 2 start = Some (Err TypeError, d1)).
  { unfold advance, start. cbn [d_t d_dt d_state d_solver s_y s_calls d_t0 d_step d_new_t0].
    rewrite (second_fails fl) by reflexivity. reflexivity. }
  set (y2 := shift_flow (0 + 1 + 1 - (0 + 1)) (shift_flow (0 + 1 - 0) y1)).
  assert (A2 : advance (half_impl fl) 5 2 d1 = Some (Ok tt, Driver y2 1 0 (0 + 1 + 1) None None
     (Solver (0 + 1 + 1) y2 (Some (0 + INR 2 * 1)) Finished 4))).
  { unfold advance, d1. cbn [d_t d_dt d_state d_solver s_y s_calls d_t0 d_step d_new_t0].
    rewrite (two_steps fl) by reflexivity. reflexivity. }
  exists shift_flow, (half_impl fl), 5%nat, start, d1. eexists.
  assert (E2 : INR 2 = 2) by (cbn [INR]; lra).
  split; [exact shift_is_flow|split; [apply half_exact|]]. split; [reflexivity|].
  split; [exact A1|]. split; [reflexivity|]. split; [reflexivity|]. split; [exact A2|].
  cbn [d_t d_state]. unfold y2, y1, shift_flow, start. cbn [fst snd d_t d_dt d_state]. rewrite E2. repeat split; try lra; f_equal; lra.
Qed.

Lemma set_state_refuted : exists flow impl fuel d v d2, is_flow flow /\ exact_steps flow impl /\ s_y (d_solver d) = d_state d /\
  advance impl fuel 2 (set_state v d) = Some (Ok tt, d2) /\
  d_state d2 = flow (INR 2 * d_dt d) (d_state d) /\ d_state d2 <> flow (INR 2 * d_dt d) v.
Proof.
  exists shift_flow, (half_impl (fun _ => false)), 5%nat, start, (fun _ => (7, 0)).
  unfold advance, start, set_state. cbn [d_t d_dt d_state d_solver s_y s_calls d_t0 d_step d_new_t0].
  rewrite two_steps by reflexivity. cbn [s_status s_t s_y]. eexists.
  assert (E2 : INR 2 = 2) by (cbn [INR]; lra).
  split; [exact shift_is_flow|split; [apply half_exact|]]. split; [reflexivity|]. split; [reflexivity|].
  cbn [d_state]. split.
  - unfold shift_flow. apply functional_extensionality. intros i. cbn [fst snd]. rewrite E2. f_equal. lra.
  - intros E. apply (f_equal (fun f => fst (f 0%nat))) in E. unfold shift_flow in E. cbn [fst snd] in E. lra.
Qed.

Lemma run_main fe n k : run fe n (AInt k) = Err ValueError.
Proof. reflexivity. Qed.
Lemma run_any fe n a : run fe (S n) a <> Ok tt.
Proof. unfold run. destruct (jsonlog_mode fe a); discriminate. Qed.

Lemma advance_step impl fuel n d r d' : advance impl fuel n d = Some (r, d') -> d_step d' = d_step d.
Proof.
  unfold advance. destruct (solver_loop _ _ _) as [s|]; [|discriminate].
  destruct (s_status s); intros E; injection E as <- <-; reflexivity.
Qed.
Lemma step_count_main impl fuel ns : forall d d', advances impl fuel ns d = Some (Ok d') -> step_count d' = step_count d.
Proof.
  induction ns as [|n ns IH]; intros d d' E; cbn [advances] in E; [now injection E as <-|].
  destruct (advance impl fuel n d) as [[[u|e] d1]|] eqn:EA; try discriminate.
  rewrite (IH d1 d' E). unfold step_count. now rewrite (advance_step _ _ _ _ _ _ EA).
Qed.
Lemma step_count_created N H initial dt t0 p m d : create N H initial dt t0 p m = Ok d -> step_count d = Err AttributeError.
Proof.
  unfold create. destruct (make_op H m) as [[h|]|]; cbn [bind]; destruct (make_rhs N H p); intros E; try discriminate.
  now injection E as <-.
Qed.

(** a real initial state *)
Lemma fsum_fst0 N (f : nat -> cpx) : (forall i, (i < N)%nat -> snd (f i) = 0) -> snd (fsum cC N f) = 0.
Proof. intros E. rewrite snd_fsum. apply (fsum_zero rR rR_laws). exact E. Qed.
Lemma real_state_frozen N H a b psi :
  (forall i j, (i < N)%nat -> (j < N)%nat -> snd (H i j) = 0) -> (forall t i, snd (psi t i) = 0) ->
  solution N (solver_rhs false (real_rhs N H)) a b psi -> forall t i, a <= t <= b -> (i < N)%nat -> psi t i = psi a i.
Proof.
  intros HR PR Sol t i Ht Hi. apply injective_projections; [|now rewrite !PR].
  apply (zero_deriv_const (fun s => fst (psi s i)) a b); [|exact Ht]. intros s Hs.
  destruct (Sol s i Hs Hi) as [D _]. eapply dl_eq; [exact D|]. unfold solver_rhs, cast, real_rhs. cbn [fst].
  assert (Z : snd (dot N H (psi s) i) = 0).
  { apply fsum_fst0. intros j Hj. cbn [cC rmul snd]. rewrite PR, HR by assumption. ring. }
  generalize dependent (dot N H (psi s) i). intros z Z. cbn [cC rmul fst snd]. rewrite Z. ring.
Qed.

Definition flip_op (i j : nat) : cpx := if (i =? j)%nat then (0, 0) else (1, 0).
Definition up (i : nat) : cpx := if (i =? 0)%nat then (1, 0) else (0, 0).
Lemma real_state_refuted : exists N H psi0, hermitian N H /\ norm2_of N psi0 = 1 /\
  (forall i, snd (psi0 i) = 0) /\
  (forall i, (i < N)%nat -> solver_rhs false (real_rhs N H) psi0 i = r0 cC) /\
  schroedinger N H psi0 1%nat = (0, -1).
Proof.
  exists 2%nat, flip_op, up. split; [|split; [|split; [|split]]].
  - intros i j _ _. unfold flip_op. rewrite (Nat.eqb_sym j i). destruct (i =? j)%nat; cpx; ring.
  - unfold norm2_of, up. cbn. ring.
  - intros i. unfold up. destruct (i =? 0)%nat; reflexivity.
  - intros i Hi. destruct i as [|[|i]]; [..|lia]; unfold solver_rhs, cast, real_rhs, dot, flip_op, up; cbn; f_equal; ring.
  - unfold schroedinger, apply_op, flip_op, up. cbn. f_equal; ring.
Qed.

(** an unnormalised state *)
Lemma unnormalised_refuted : exists N O psi, hermitian N O /\ expectation N O psi = (1, 0) /\
  estimate N O psi = ((2, 0), - 2).
Proof.
  exists 2%nat, unit_mat, (fun _ => (1, 0)). split; [|split].
  - intros i j _ _. unfold unit_mat. rewrite (Nat.eqb_sym j i). destruct (i =? j)%nat; cpx; ring.
  - unfold expectation, over, braket, apply_op, norm2_of, unit_mat. cbn. f_equal; field.
  - unfold estimate, vdot, dot, unit_mat. cbn. f_equal; [f_equal; ring|ring].
Qed.

(** ** two solutions *)
Definition rabi (t : R) (i : nat) : cpx := if (i =? 0)%nat then (cos t, 0) else (0, - sin t).
Lemma rabi_solution a b : solution 2 (real_rhs 2 flip_op) a b rabi.
Proof.
  intros t i _ Hi. assert (D0 : forall c, derivable_pt_lim (fun _ : R => c) t 0) by (intros; apply derivable_pt_lim_const).
  destruct i as [|[|i]]; [..|lia]; unfold real_rhs, dot, flip_op, rabi; cbn; split; cbn [fst snd].
  - eapply dl_eq; [apply derivable_pt_lim_cos|ring].
  - eapply dl_eq; [apply D0|ring].
  - eapply dl_eq; [apply D0|ring].
  - eapply dl_eq; [apply (derivable_pt_lim_opp sin), derivable_pt_lim_sin|ring].
Qed.
Lemma rabi_norm t : norm2_of 2 (rabi t) = 1.
Proof. unfold norm2_of, rabi. cbn. pose proof (sin2_cos2 t). unfold Rsqr in *. lra. Qed.
Lemma flip_hermitian : hermitian 2 flip_op.
Proof. intros i j _ _. unfold flip_op. rewrite (Nat.eqb_sym j i). destruct (i =? j)%nat; cpx; ring. Qed.

Definition zz (i j : nat) : cpx := if (i =? j)%nat then (if (i =? 0)%nat then (-1, 0) else (1, 0)) else (0, 0).
Definition ww (t : R) : R := exp (2 * t) + exp (- (2) * t).
Definition cool (t : R) (i : nat) : cpx := if (i =? 0)%nat then (exp (t - / 2 * ln (ww t)), 0) else (exp (- t - / 2 * ln (ww t)), 0).
Lemma ww_pos t : 0 < ww t.
Proof. unfold ww. pose proof (exp_pos (2 * t)). pose proof (exp_pos (- (2) * t)). lra. Qed.
Lemma cool_sq0 t : exp (t - / 2 * ln (ww t)) * exp (t - / 2 * ln (ww t)) = exp (2 * t) / ww t.
Proof.
  rewrite <- exp_plus. replace (t - / 2 * ln (ww t) + (t - / 2 * ln (ww t))) with (2 * t + - ln (ww t)) by field.
  rewrite exp_plus, exp_Ropp, exp_ln by apply ww_pos. reflexivity.
Qed.
Lemma cool_sq1 t : exp (- t - / 2 * ln (ww t)) * exp (- t - / 2 * ln (ww t)) = exp (- (2) * t) / ww t.
Proof.
  rewrite <- exp_plus. replace (- t - / 2 * ln (ww t) + (- t - / 2 * ln (ww t))) with (- (2) * t + - ln (ww t)) by field.
  rewrite exp_plus, exp_Ropp, exp_ln by apply ww_pos. reflexivity.
Qed.
Lemma cool_norm t : norm2_of 2 (cool t) = 1.
Proof.
  unfold norm2_of, cool. cbn. 
  transitivity (exp (t - / 2 * ln (ww t)) * exp (t - / 2 * ln (ww t)) + exp (- t - / 2 * ln (ww t)) * exp (- t - / 2 * ln (ww t))); [ring|].
  rewrite cool_sq0, cool_sq1. pose proof (ww_pos t). unfold ww in *. field. lra.
Qed.
Lemma zz_hermitian : hermitian 2 zz.
Proof. intros i j _ _. unfold zz. rewrite (Nat.eqb_sym j i). destruct (Nat.eqb_spec i j) as [->|]; [destruct (j =? 0)%nat|]; cpx; ring. Qed.
Lemma lin_deriv k t : derivable_pt_lim (fun s => k * s) t k.
Proof. eapply dl_eq; [apply (derivable_pt_lim_scal id k t 1), derivable_pt_lim_id|ring]. Qed.
Lemma exp_lin k t : derivable_pt_lim (fun s => exp (k * s)) t (exp (k * t) * k).
Proof. apply (derivable_pt_lim_comp (fun s => k * s) exp); [apply lin_deriv|apply derivable_pt_lim_exp]. Qed.
Lemma cool_exponent k t : derivable_pt_lim (fun s => exp (k * s - / 2 * ln (ww s))) t
  (exp (k * t - / 2 * ln (ww t)) * (k + (exp (- (2) * t) - exp (2 * t)) / ww t)).
Proof.
  assert (DW : derivable_pt_lim ww t (exp (2 * t) * 2 + exp (- (2) * t) * - (2))).
  { apply (derivable_pt_lim_plus (fun s => exp (2 * s)) (fun s => exp (- (2) * s))); apply exp_lin. }
  assert (DL : derivable_pt_lim (fun s => ln (ww s)) t (/ ww t * (exp (2 * t) * 2 + exp (- (2) * t) * - (2)))).
  { apply (derivable_pt_lim_comp ww ln); [exact DW|apply derivable_pt_lim_ln, ww_pos]. }
  apply (derivable_pt_lim_comp (fun s => k * s - / 2 * ln (ww s)) exp).
  - eapply dl_eq; [apply (derivable_pt_lim_minus (fun s => k * s) (fun s => / 2 * ln (ww s)));
      [apply lin_deriv|apply (derivable_pt_lim_scal (fun s => ln (ww s)) (/ 2)), DL]|].
    pose proof (ww_pos t). field. lra.
  - apply derivable_pt_lim_exp.
Qed.
Lemma cool_solution a b : solution 2 (imaginary_rhs 2 zz) a b cool.
Proof.
  intros t i _ Hi. 
  assert (M : vdot 2 (cool t) (dot 2 zz (cool t)) = emb ((exp (- (2) * t) - exp (2 * t)) / ww t)).
  { transitivity (emb (exp (- t - / 2 * ln (ww t)) * exp (- t - / 2 * ln (ww t)) - exp (t - / 2 * ln (ww t)) * exp (t - / 2 * ln (ww t)))).
    - unfold vdot, dot, zz, cool, emb. cbn. f_equal; ring.
    - rewrite cool_sq0, cool_sq1. f_equal. pose proof (ww_pos t). field. lra. }
  unfold imaginary_rhs. rewrite M. 
  destruct i as [|[|i]]; [..|lia]; unfold dot, zz, cool, emb; cbn; split; cbn [fst snd].
  - apply (dl_ext (fun s => exp (1 * s - / 2 * ln (ww s)))); [intros; now rewrite Rmult_1_l|].
    eapply dl_eq; [apply cool_exponent|]. rewrite Rmult_1_l. ring.
  - eapply dl_eq; [apply derivable_pt_lim_const|ring].
  - apply (dl_ext (fun s => exp (- (1) * s - / 2 * ln (ww s)))); [intros; f_equal; ring|].
    eapply dl_eq; [apply cool_exponent|]. replace (- (1) * t) with (- t) by ring. ring.
  - eapply dl_eq; [apply derivable_pt_lim_const|ring].
Qed.

Lemma reset_main d : step_count (reset d) = Ok 0%Z /\ d_new_t0 (reset d) = Some (d_t d) /\
  d_state (reset d) = d_state d /\ d_t (reset d) = d_t d /\ d_dt (reset d) = d_dt d /\ d_solver (reset d) = d_solver d.
Proof. now repeat split. Qed.
