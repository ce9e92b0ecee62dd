From Coq Require Import List Arith ZArith Lia Bool Reals Lra.
From Verif Require Import Base Rings ARNN_Model ARNN_Proofs ToArray_Model Estim_Model Estim_Spec Estim_Proofs
  Balance_Spec Balance_Proofs LegQsr_Model LegQsr_Spec.
Import ListNotations.
Open Scope R_scope.

(** ** lists *)
Lemma entry_map_seq (f : nat -> cpx) n k : (k < n)%nat -> entry (map f (seq 0 n)) k = f k.
Proof.
  intros H. unfold entry. rewrite (nth_indep _ _ (f 0%nat)) by (rewrite map_length, seq_length; exact H).
  rewrite map_nth, seq_nth by exact H. reflexivity.
Qed.
Lemma all_some_map {X A} (f : X -> A) l : all_some (map (fun x => Some (f x)) l) = Some (map f l).
Proof. induction l as [|x l IH]; [reflexivity|]. cbn [map all_some]. rewrite IH. reflexivity. Qed.
Lemma all_some_none {A} (l : list (option A)) : In None l -> all_some l = None.
Proof.
  induction l as [|x l IH]; [intros []|]. intros [->|H]; [reflexivity|]. cbn [all_some].
  destruct x; [|reflexivity]. rewrite IH by exact H. reflexivity.
Qed.
Lemma sequence_map {X A} (f : X -> res A) (g : X -> A) l : (forall x, In x l -> f x = Ok (g x)) ->
  sequence (map f l) = Ok (map g l).
Proof.
  induction l as [|x l IH]; intros H; [reflexivity|]. cbn [map sequence]. rewrite H by (left; reflexivity).
  cbn [bind]. rewrite IH by (intros y Hy; apply H; right; exact Hy). reflexivity.
Qed.
Lemma rsum_map {X Y} (f : Y -> R) (g : X -> Y) l : rsum f (map g l) = rsum (fun x => f (g x)) l.
Proof. induction l as [|x l IH]; [reflexivity|]. cbn [map rsum]. rewrite IH. reflexivity. Qed.
Lemma rsum_app {X} (f : X -> R) l1 l2 : rsum f (l1 ++ l2) = rsum f l1 + rsum f l2.
Proof. induction l1 as [|x l IH]; cbn [app rsum]; [ring|]. rewrite IH. ring. Qed.
Lemma rsum_flat_map {X Y} (f : Y -> R) (g : X -> list Y) l : rsum f (flat_map g l) = rsum (fun x => rsum f (g x)) l.
Proof. induction l as [|x l IH]; [reflexivity|]. cbn [flat_map rsum]. rewrite rsum_app, IH. reflexivity. Qed.
Lemma rsum_concat {Y} (f : Y -> R) l : rsum f (concat l) = rsum (fun x => rsum f x) l.
Proof. induction l as [|x l IH]; [reflexivity|]. cbn [concat rsum]. rewrite rsum_app, IH. reflexivity. Qed.
Lemma rsum_cst {X} c (l : list X) : rsum (fun _ => c) l = INR (length l) * c.
Proof. induction l as [|x l IH]; [cbn; ring|]. cbn [rsum length]. rewrite IH, S_INR. ring. Qed.
Lemma rsum_nth {X} (f : X -> R) l d : rsum f l = rsum (fun i => f (nth i l d)) (seq 0 (length l)).
Proof.
  induction l as [|x l IH]; [reflexivity|]. cbn [length seq rsum nth]. rewrite IH. f_equal.
  rewrite <- seq_shift, rsum_map. reflexivity.
Qed.
Lemma rsum_rsum {X Y} (f : X -> Y -> R) lx ly : rsum (fun x => rsum (f x) ly) lx = rsum (fun y => rsum (fun x => f x y) lx) ly.
Proof. apply rsum_swap. Qed.
Lemma rsum_minus {X} (f g : X -> R) l : rsum (fun x => f x - g x) l = rsum f l - rsum g l.
Proof. induction l as [|x l IH]; cbn [rsum]; [ring|]. rewrite IH. ring. Qed.
Lemma rsum_combine_l {X Y} (f : X -> R) (a : list X) (b : list Y) : length a = length b ->
  rsum (fun p => f (fst p)) (combine a b) = rsum f a.
Proof.
  revert b. induction a as [|x a IH]; intros [|y b] H; try discriminate; [reflexivity|].
  cbn [combine rsum fst]. rewrite IH by (injection H; auto). reflexivity.
Qed.

(** nested averages over blocks of equal size *)
Lemma average_blocks {X Y} (f : Y -> R) (g : X -> list Y) l n : (0 < n)%nat -> Forall (fun x => length (g x) = n) l ->
  average f (flat_map g l) = average (fun x => average f (g x)) l.
Proof.
  intros Hn F. unfold average. rewrite rsum_flat_map.
  rewrite (rsum_ext (fun x => rsum f (g x) / INR (length (g x))) (fun x => / INR n * rsum f (g x))).
  2:{ intros x Hx. rewrite Forall_forall in F. rewrite (F x Hx). unfold Rdiv. ring. }
  rewrite rsum_scal.
  assert (E : length (flat_map g l) = (length l * n)%nat).
  { clear - F. induction F as [|x l H F IH]; [reflexivity|]. cbn [flat_map length]. rewrite app_length, IH, H. reflexivity. }
  rewrite E, mult_INR. destruct l as [|x l]; [cbn; unfold Rdiv; ring|].
  assert (INR n <> 0) by (apply not_0_INR; lia). assert (INR (length (x :: l)) <> 0) by (apply not_0_INR; discriminate).
  field. auto.
Qed.
Lemma flat_map_id {A} (l : list (list A)) : flat_map (fun x => x) l = concat l.
Proof. induction l as [|x l IH]; [reflexivity|]. cbn. rewrite IH. reflexivity. Qed.

(** ** the real-linear form d |-> Re sum_k conj(d_k) v_k *)
Section Form.
  Variables (n : nat) (v : nat -> cpx).
  Definition form (d : nat -> cpx) : R := fst (fsum cC n (fun k => conj (d k) * v k)%C).
  Lemma form_ext d e : (forall k, (k < n)%nat -> d k = e k) -> form d = form e.
  Proof. intros H. unfold form. f_equal. apply fsum_ext. intros k Hk. rewrite H by exact Hk. reflexivity. Qed.
  Lemma form_scal c d : form (fun k => rscal c (d k)) = c * form d.
  Proof.
    unfold form. rewrite !fst_fsum. induction n as [|m IH]; cbn [fsum]; [cbn; ring|].
    rewrite IH. cbn [rR radd cC rmul rconj fst snd]. unfold rscal. cbn [fst snd]. ring.
  Qed.
  Lemma form_add d e : form (fun k => d k + e k)%C = form d + form e.
  Proof.
    unfold form. rewrite !fst_fsum. induction n as [|m IH]; cbn [fsum]; [cbn; ring|].
    rewrite IH. cbn [rR radd cC rmul rconj fst snd]. ring.
  Qed.
  Lemma form_sub d e : form (fun k => d k - e k)%C = form d - form e.
  Proof.
    unfold form. rewrite !fst_fsum. induction n as [|m IH]; cbn [fsum]; [cbn; ring|].
    rewrite IH. cbn [rR radd rsub cC rmul rconj fst snd]. ring.
  Qed.
  Lemma form_zero : form (fun _ => r0 cC) = 0.
  Proof. unfold form. rewrite fst_fsum. induction n as [|m IH]; cbn [fsum]; [reflexivity|]. rewrite IH. cbn. ring. Qed.
  Lemma form_lsum {A} (f : A -> nat -> cpx) l : form (fun k => lsum cC (map (fun a => f a k) l)) = rsum (fun a => form (f a)) l.
  Proof. induction l as [|a l IH]; cbn [map lsum rsum]; [apply form_zero|]. rewrite form_add, IH. reflexivity. Qed.
  Lemma slope_form d : slope n d v = form (entry d).
  Proof. reflexivity. Qed.
  Lemma form_mean rows : form (entry (mean_rows n rows)) = average (fun r => form (entry r)) rows.
  Proof.
    rewrite (form_ext _ (fun k => rscal (/ INR (length rows)) (lsum cC (map (fun r => entry r k) rows)))).
    2:{ intros k Hk. unfold mean_rows. rewrite entry_map_seq by exact Hk. reflexivity. }
    rewrite form_scal, form_lsum. unfold average, Rdiv. ring.
  Qed.
  Lemma form_conj d : form (fun k => conj (d k)) = fst (fsum cC n (fun k => d k * v k)%C).
  Proof. unfold form. f_equal. apply fsum_ext. intros k _. rewrite (cr_conj_conj cC cC_laws). reflexivity. Qed.
End Form.

(** ** complex division *)
Lemma cquot_mul a b : cnorm2 b <> 0 -> (cquot a b * b)%C = a.
Proof.
  intros H. unfold cquot, cdiv. destruct a as [a1 a2], b as [b1 b2]. unfold cnorm2 in *. cbn [fst snd] in *.
  cpx; cbn [fst snd]; field; exact H.
Qed.
Lemma cquot_unique a b c : cnorm2 b <> 0 -> (c * b)%C = a -> cquot a b = c.
Proof.
  intros H <-. unfold cquot, cdiv. destruct c as [a1 a2], b as [b1 b2]. unfold cnorm2 in *. cbn [fst snd] in *.
  cpx; cbn [fst snd cC rmul]; field; exact H.
Qed.
Lemma cnorm2_zero z : cnorm2 z = 0 <-> z = (0, 0).
Proof.
  destruct z as [a b]. unfold cnorm2. cbn [fst snd]. split; [|intros E; injection E as -> ->; ring].
  intros H. assert (a = 0) by nra. assert (b = 0) by nra. subst. reflexivity.
Qed.
Lemma czero_spec z : czero z = true <-> z = (0, 0).
Proof.
  destruct z as [a b]. unfold czero. cbn [fst snd]. destruct (Req_EM_T a 0), (Req_EM_T b 0); subst; split; intros H;
    try discriminate; try reflexivity; injection H; intros; subst; contradiction.
Qed.
Lemma czero_false z : cnorm2 z <> 0 -> czero z = false.
Proof. intros H. destruct (czero z) eqn:E; [|reflexivity]. apply czero_spec in E. subst. exfalso. apply H. unfold cnorm2. cbn. ring. Qed.
Lemma cnorm2_mul a b : cnorm2 (a * b)%C = cnorm2 a * cnorm2 b.
Proof. unfold cnorm2. cbn [cC rmul fst snd]. ring. Qed.
Lemma cnorm2_cj a : cnorm2 (conj a) = cnorm2 a.
Proof. unfold cnorm2. cbn [cC rconj fst snd]. ring. Qed.
Lemma cquot_conj a b : cquot (conj a) (conj b) = conj (cquot a b).
Proof. unfold cquot, cdiv. rewrite cnorm2_cj. cpx; unfold Rdiv; ring. Qed.
Lemma cquot_scale a b c : cnorm2 b <> 0 -> cnorm2 c <> 0 -> cquot (a * c)%C (b * c)%C = cquot a b.
Proof.
  intros Hb Hc. apply cquot_unique; [rewrite cnorm2_mul; nra|].
  transitivity (cquot a b * b * c)%C; [ring|]. rewrite cquot_mul by exact Hb. reflexivity.
Qed.
Lemma cquot_lsum {A} (f : A -> cpx) b l :
  lsum cC (map (fun a => cquot (f a) b) l) = cquot (lsum cC (map f l)) b.
Proof.
  induction l as [|a l IH]; cbn [map lsum].
  - unfold cquot, cdiv. cpx; unfold Rdiv; ring.
  - rewrite IH. unfold cquot, cdiv. cpx; unfold Rdiv; ring.
Qed.
Lemma lsum_conj {A} (f : A -> cpx) l : conj (lsum cC (map f l)) = lsum cC (map (fun a => conj (f a)) l).
Proof.
  induction l as [|a l IH]; cbn [map lsum]; [cpx; ring|]. rewrite <- IH. cpx; ring.
Qed.
Lemma lsum_mul_r {A} (f : A -> cpx) c l : lsum cC (map (fun a => f a * c)%C l) = (lsum cC (map f l) * c)%C.
Proof. induction l as [|a l IH]; cbn [map lsum]; [ring|]. rewrite IH. ring. Qed.
Lemma lsum_ext' {A} (f g : A -> cpx) l : (forall a, In a l -> f a = g a) -> lsum cC (map f l) = lsum cC (map g l).
Proof. intros H. f_equal. apply map_ext_in. exact H. Qed.

(** ** one measurement *)
Section Rotated.
  Variables (N : nat) (O : nat -> nat -> cpx) (conn : conn_of) (m : qmach) (x : nat).
  Hypothesis HC : describes N O conn.
  Hypothesis Hx : (x < N)%nat.
  Let A : cpx := apply_op N O (psi_of (q_log m)) x.
  Let unit_ (mx : R) : cpx := cexp (ropp cC (mx, 0)).
  Lemma unit_norm mx : cnorm2 (unit_ mx) <> 0.
  Proof. unfold unit_. rewrite cexp_norm. pose proof (exp_pos (fst (ropp cC (mx, 0)))). nra. Qed.
  Lemma shifted z mx : cexp (rsub cC z (mx, 0)) = (cexp z * unit_ mx)%C.
  Proof. unfold unit_. rewrite <- cexp_mul. f_equal.  Qed.

  Lemma amplitude_sum : lsum cC (map (fun c => snd c * cexp (q_log m (fst c)))%C (conn x)) = A.
  Proof.
    unfold A, apply_op. destruct (HC x Hx) as [F E]. rewrite (group_conn N (fun s => cexp (q_log m s))) by exact F.
    apply fsum_ext. intros t Ht. rewrite E by exact Ht. reflexivity.
  Qed.
  Lemma weighted_sum (g : nat -> cpx) :
    lsum cC (map (fun c => snd c * (cexp (q_log m (fst c)) * g (fst c)))%C (conn x))
    = apply_op N O (fun s => psi_of (q_log m) s * g s)%C x.
  Proof.
    unfold apply_op. destruct (HC x Hx) as [F E]. rewrite (group_conn N (fun s => cexp (q_log m s) * g s)%C) by exact F.
    apply fsum_ext. intros t Ht. rewrite E by exact Ht. reflexivity.
  Qed.
  Lemma nonempty : cnorm2 A <> 0 -> conn x <> [].
  Proof.
    intros H E. rewrite <- amplitude_sum in H. rewrite E in H. apply H. cbn [map lsum]. unfold cnorm2. cbn. ring.
  Qed.
  Lemma max_some : conn x <> [] -> exists mx, max_real (map (q_log m) (map fst (conn x))) = Ok mx.
  Proof. intros H. destruct (conn x) as [|c l]; [contradiction|]. eexists. reflexivity. Qed.

  Lemma combine_conn (h : cpx * cpx -> cpx) :
    map h (combine (map snd (conn x)) (map (q_log m) (map fst (conn x)))) = map (fun c => h (snd c, q_log m (fst c))) (conn x).
  Proof. induction (conn x) as [|c l IH]; [reflexivity|]. cbn [map combine]. rewrite IH. reflexivity. Qed.
  Lemma combine_vec (h : nat * cpx -> cpx) (g : nat * cpx -> cpx) :
    map h (combine (map fst (conn x)) (map g (conn x))) = map (fun c => h (fst c, g c)) (conn x).
  Proof. induction (conn x) as [|c l IH]; [reflexivity|]. cbn [map combine]. rewrite IH. reflexivity. Qed.

  Lemma kernel_sum mx :
    lsum cC (map (fun c => conj (snd c * cexp (rsub cC (q_log m (fst c)) (mx, 0)))%C) (conn x)) = conj (A * unit_ mx)%C.
  Proof.
    rewrite <- amplitude_sum, <- lsum_mul_r, lsum_conj. apply lsum_ext'. intros c _.
    rewrite shifted. f_equal. ring.
  Qed.
  Definition log_slope (k : nat) : cpx := cquot (apply_op N O (fun s => psi_of (q_log m) s * entry (q_der m s) k)%C x) A.

  Lemma rotated_grad_value rots b out : nth_error rots b = Some conn -> q_writes m = true -> cnorm2 A <> 0 ->
    rotated_grad m rots x b out = Ok (Some (map (fun k => conj (log_slope k)) (seq 0 (q_npar m)))).
  Proof.
    intros Eb Hw HA. unfold rotated_grad. rewrite Eb. unfold kernel.
    destruct (max_some (nonempty HA)) as [mx Em]. rewrite Em. cbn [bind].
    rewrite combine_conn. cbn [fst snd]. rewrite kernel_sum.
    assert (Hn : cnorm2 (A * unit_ mx)%C <> 0) by (rewrite cnorm2_mul; pose proof (unit_norm mx); nra).
    rewrite czero_false by (rewrite cnorm2_cj; exact Hn). cbn [bind]. unfold vjp. rewrite Hw. f_equal. f_equal.
    apply map_ext_in. intros k Hk. rewrite map_map. rewrite combine_vec. cbn [fst snd].
    unfold log_slope. rewrite <- weighted_sum. rewrite <- cquot_lsum, lsum_conj. apply lsum_ext'. intros c _.
    rewrite cquot_conj, shifted.
    replace (snd c * (cexp (q_log m (fst c)) * unit_ mx))%C with ((snd c * cexp (q_log m (fst c))) * unit_ mx)%C by ring.
    rewrite cquot_scale by (try apply unit_norm; exact HA).
    rewrite <- (cr_conj_mul cC cC_laws). f_equal.
    symmetry. apply cquot_unique; [exact HA|].
    transitivity (entry (q_der m (fst c)) k * (cquot (snd c * cexp (q_log m (fst c))) A * A))%C; [ring|].
    rewrite cquot_mul by exact HA. ring.
  Qed.
  Lemma rotated_grad_nan rots b out : nth_error rots b = Some conn -> q_writes m = true -> conn x <> [] -> cnorm2 A = 0 ->
    rotated_grad m rots x b out = Ok None.
  Proof.
    intros Eb Hw Hne HA. unfold rotated_grad. rewrite Eb. unfold kernel.
    destruct (max_some Hne) as [mx Em]. rewrite Em. cbn [bind].
    rewrite combine_conn. cbn [fst snd]. rewrite kernel_sum.
    apply cnorm2_zero in HA. rewrite HA.
    assert (E : conj ((0, 0) * unit_ mx)%C = (0, 0)) by (cpx; cbn [fst snd]; ring).
    rewrite (proj2 (czero_spec _) E). cbn [bind]. rewrite Hw. reflexivity.
  Qed.
  Lemma rotated_grad_empty rots b out : nth_error rots b = Some conn -> conn x = [] ->
    rotated_grad m rots x b out = Err ValueError.
  Proof. intros Eb E. unfold rotated_grad. rewrite Eb, E. reflexivity. Qed.

  (** the derivative of ln |A|^2 *)
  Variables (v : nat -> cpx) (lp : R -> nat -> cpx) (t0 : R).
  Hypothesis HM : moves N m v lp t0.
  Let g s := fsum cC (q_npar m) (fun k => entry (q_der m s) k * v k)%C.
  Lemma apply_ext' f h : (forall s, (s < N)%nat -> f s = h s) -> apply_op N O f x = apply_op N O h x.
  Proof. intros H. unfold apply_op. apply fsum_ext. intros s Hs. rewrite H by exact Hs. reflexivity. Qed.
  Lemma at_t0 : apply_op N O (psi_of (lp t0)) x = A.
  Proof. unfold A. apply apply_ext'. intros s Hs. rewrite !psi_is. rewrite (proj1 HM s Hs). reflexivity. Qed.
  Lemma amp_deriv : cderiv (fun t => apply_op N O (psi_of (lp t)) x) t0 (apply_op N O (fun s => psi_of (q_log m) s * g s)%C x).
  Proof.
    unfold apply_op. apply cderiv_fsum. intros s Hs.
    eapply cderiv_eq; [apply (cderiv_mul (fun _ => O x s) (fun t => psi_of (lp t) s)); [apply cderiv_const|
      exact (cderiv_exp (fun t => lp t s) t0 (g s) (proj2 HM s Hs))]|].
    rewrite !psi_is. rewrite <- (proj1 HM s Hs). ring.
  Qed.
  Lemma ln_norm_deriv (f : R -> cpx) l : cderiv f t0 l -> cnorm2 (f t0) <> 0 ->
    derivable_pt_lim (fun t => ln (cnorm2 (f t))) t0 (2 * fst (cquot l (f t0))).
  Proof.
    intros [D1 D2] H.
    assert (P : 0 < cnorm2 (f t0)) by (unfold cnorm2 in *; nra).
    pose proof (derivable_pt_lim_plus _ _ _ _ _ (derivable_pt_lim_mult _ _ _ _ _ D1 D1) (derivable_pt_lim_mult _ _ _ _ _ D2 D2)) as Dn.
    pose proof (derivable_pt_lim_comp _ ln t0 _ _ Dn (derivable_pt_lim_ln _ P)) as Dl.
    eapply dl_eq; [exact Dl|]. unfold cquot, cdiv. cbn [fst snd]. fold (cnorm2 (f t0)). unfold cnorm2 at 1.
    unfold plus_fct, mult_fct. unfold cnorm2 in *. field. exact H.
  Qed.
  Lemma log_slope_form : form (q_npar m) v (fun k => conj (log_slope k)) =
    fst (cquot (apply_op N O (fun s => psi_of (q_log m) s * g s)%C x) A).
  Proof.
    rewrite form_conj. f_equal. unfold log_slope, apply_op, g.
    transitivity (fsum cC (q_npar m) (fun k => fsum cC N (fun s => cquot (O x s * (psi_of (q_log m) s * entry (q_der m s) k)) A * v k)))%C.
    { apply fsum_ext. intros k _. rewrite (fsum_lsum cC cC_laws), <- cquot_lsum, <- lsum_mul_r, <- (fsum_lsum cC cC_laws). reflexivity. }
    rewrite (fsum_swap cC cC_laws). rewrite (fsum_lsum cC cC_laws N (fun t => O x t * _)%C), <- cquot_lsum, <- (fsum_lsum cC cC_laws).
    apply fsum_ext. intros s _.
    rewrite <- (fsum_scal cC cC_laws), <- (fsum_scal cC cC_laws).
    rewrite !(fsum_lsum cC cC_laws), <- cquot_lsum. apply lsum_ext'. intros k _.
    unfold cquot, cdiv. cpx; unfold Rdiv; ring.
  Qed.
  Lemma measured_deriv : cnorm2 A <> 0 ->
    derivable_pt_lim (fun t => ln (cnorm2 (apply_op N O (psi_of (lp t)) x))) t0 (2 * form (q_npar m) v (fun k => conj (log_slope k))).
  Proof.
    intros HA. rewrite log_slope_form. rewrite <- at_t0.
    apply ln_norm_deriv; [exact amp_deriv|rewrite at_t0; exact HA].
  Qed.
End Rotated.
