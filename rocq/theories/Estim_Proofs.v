From Coq Require Import List Arith Reals Lra Lia Ring.
From Verif Require Import Base Rings ARNN_Model ARNN_Proofs ToArray_Model Estim_Model Estim_Spec.
Import ListNotations.
Open Scope R_scope.

Add Ring cCring : (cr_ring cC cC_laws).
Declare Scope cpx_scope.
Delimit Scope cpx_scope with C.
Infix "+" := (radd cC) : cpx_scope.
Infix "*" := (rmul cC) : cpx_scope.
Infix "-" := (rsub cC) : cpx_scope.
Notation conj := (rconj cC).

Ltac cpx := apply injective_projections; cbn [cC T r0 r1 radd rmul rsub ropp rconj fst snd].


Lemma rR_laws : cring_laws rR.
Proof. constructor; cbn; intros; auto. exact RTheory. Qed.

(** ** components and scalars *)
Lemma fst_fsum n f : fst (fsum cC n f) = fsum rR n (fun i => fst (f i)).
Proof. induction n; [reflexivity|]. cbn [fsum]. rewrite <- IHn. reflexivity. Qed.
Lemma snd_fsum n f : snd (fsum cC n f) = fsum rR n (fun i => snd (f i)).
Proof. induction n; [reflexivity|]. cbn [fsum]. rewrite <- IHn. reflexivity. Qed.
Definition emb (r : R) : cpx := (r, 0).
Lemma rscal_emb r z : rscal r z = (emb r * z)%C.
Proof. unfold rscal, emb. cpx; ring. Qed.
Lemma over_emb z r : over z r = (emb (/ r) * z)%C.
Proof. unfold over, emb. cpx; unfold Rdiv; ring. Qed.
Lemma emb_mul a b : emb (a * b) = (emb a * emb b)%C.
Proof. unfold emb. cpx; ring. Qed.
Lemma emb_1 : emb 1 = r1 cC.
Proof. reflexivity. Qed.
Lemma cnorm2_conj z : emb (cnorm2 z) = (conj z * z)%C.
Proof. unfold emb, cnorm2. cpx; ring. Qed.

Lemma cexp_mul a b : cexp (a + b)%C = (cexp a * cexp b)%C.
Proof.
  unfold cexp. cpx; rewrite exp_plus, ?cos_plus, ?sin_plus; ring.
Qed.
Lemma cexp_sub a b : (cexp (a - b) * cexp b)%C = cexp a.
Proof. rewrite <- cexp_mul. f_equal. ring. Qed.
Lemma cexp_norm z : cnorm2 (cexp z) = exp (fst z) * exp (fst z).
Proof.
  unfold cnorm2, cexp. cbn [fst snd]. pose proof (sin2_cos2 (snd z)) as E. unfold Rsqr in E.
  replace (exp (fst z) * cos (snd z) * (exp (fst z) * cos (snd z)) + exp (fst z) * sin (snd z) * (exp (fst z) * sin (snd z)))
    with (exp (fst z) * exp (fst z) * (sin (snd z) * sin (snd z) + cos (snd z) * cos (snd z))) by ring.
  rewrite E. ring.
Qed.
Lemma psi_is log_psi s : psi_of log_psi s = cexp (log_psi s).
Proof. reflexivity. Qed.
Lemma psi_pos log_psi s : 0 < cnorm2 (psi_of log_psi s).
Proof. rewrite psi_is, cexp_norm. pose proof (exp_pos (fst (log_psi s))). nra. Qed.

Lemma norm2_sum N psi : norm2_of N psi = fsum rR N (fun s => cnorm2 (psi s)).
Proof.
  unfold norm2_of. rewrite fst_fsum. apply (fsum_ext rR). intros s _. now rewrite <- cnorm2_conj.
Qed.
Lemma norm2_pos N log_psi : (0 < N)%nat -> 0 < norm2_of N (psi_of log_psi).
Proof.
  intros H. rewrite norm2_sum. destruct N as [|N]; [lia|]. clear H. cbn [fsum].
  change (radd rR ?a ?b) with (a + b). pose proof (psi_pos log_psi N).
  assert (0 <= fsum rR N (fun s => cnorm2 (psi_of log_psi s))); [|lra].
  clear H. induction N as [|N IH]; cbn [fsum]; [cbn; lra|]. change (radd rR ?a ?b) with (a + b).
  pose proof (psi_pos log_psi N). lra.
Qed.
Lemma emb_fsum n f : emb (fsum rR n f) = fsum cC n (fun i => emb (f i)).
Proof.
  induction n; [reflexivity|]. cbn [fsum]. rewrite <- IHn. unfold emb. cpx; cbn [rR radd]; ring.
Qed.
Lemma norm2_emb N psi : emb (norm2_of N psi) = braket N psi psi.
Proof.
  rewrite norm2_sum, emb_fsum. apply fsum_ext. intros s _. apply cnorm2_conj.
Qed.

(** ** grouping by configuration *)
Lemma group_conn N (g : nat -> cpx) conn : Forall (fun c => (fst c < N)%nat) conn ->
  lsum cC (map (fun c => snd c * g (fst c))%C conn)
  = fsum cC N (fun t => lsum cC (map snd (filter (fun c => fst c =? t)%nat conn)) * g t)%C.
Proof.
  induction conn as [|[t m] conn IH]; intros F.
  - cbn [map filter lsum]. symmetry. apply fsum_zero; [apply cC_laws|]. intros; ring.
  - apply Forall_cons_iff in F. destruct F as [F1 F]. cbn [fst] in F1. cbn [map filter lsum fst snd].
    rewrite IH by exact F.
    transitivity (fsum cC N (fun u => (if (u =? t)%nat then m * g u else r0 cC) +
      lsum cC (map snd (filter (fun c => fst c =? u)%nat conn)) * g u)%C).
    + rewrite (fsum_add cC cC_laws). f_equal. rewrite (fsum_delta cC cC_laws N (fun u => m * g u)%C t F1). reflexivity.
    + apply fsum_ext. intros u _. rewrite (Nat.eqb_sym u t). destruct (t =? u)%nat; cbn [map lsum snd]; ring.
Qed.

Lemma lsum_scal_r c (l : list (nat * cpx)) (f : nat * cpx -> cpx) :
  (lsum cC (map f l) * c)%C = lsum cC (map (fun x => f x * c)%C l).
Proof. induction l as [|x l IH]; cbn [map lsum]; [ring|]. rewrite <- IH. ring. Qed.

Lemma local_value_main N O conn log_psi s : describes N O conn -> (s < N)%nat ->
  (local_value log_psi s (conn s) * psi_of log_psi s)%C = apply_op N O (psi_of log_psi) s.
Proof.
  intros D Hs. destruct (D s Hs) as [F E]. unfold local_value. rewrite lsum_scal_r.
  rewrite (map_ext _ (fun c => snd c * psi_of log_psi (fst c))%C).
  - rewrite (group_conn N) by exact F. apply fsum_ext. intros t Ht. now rewrite E.
  - intros c. rewrite !psi_is, <- (cexp_sub (log_psi (fst c)) (log_psi s)). ring.
Qed.

(** ** averages *)
Lemma wsum_full N psi f : wsum (full_sampling N psi) f = over (fsum cC N (fun s => emb (cnorm2 (psi s)) * f s)%C) (norm2_of N psi).
Proof.
  unfold wsum, full_sampling. rewrite map_map. cbn [fst snd].
  rewrite <- (fsum_lsum cC cC_laws N (fun s => rscal (born N psi s) (f s))).
  rewrite over_emb, <- (fsum_scal cC cC_laws). apply fsum_ext. intros s _.
  rewrite rscal_emb. unfold born. unfold Rdiv. rewrite emb_mul. ring.
Qed.

Lemma expect_full N O conn log_psi : describes N O conn ->
  expect false log_psi conn (full_sampling N (psi_of log_psi)) = expectation N O (psi_of log_psi).
Proof.
  intros D. unfold expect. rewrite wsum_full. unfold expectation, braket. f_equal.
  apply fsum_ext. intros s Hs. rewrite cnorm2_conj. rewrite <- (local_value_main N O conn log_psi s D Hs). ring.
Qed.

Lemma expect_squared N O conn log_psi : describes N O conn ->
  expect true log_psi conn (full_sampling N (psi_of log_psi))
  = over (braket N (apply_op N O (psi_of log_psi)) (apply_op N O (psi_of log_psi))) (norm2_of N (psi_of log_psi)).
Proof.
  intros D. unfold expect. rewrite wsum_full. unfold braket. f_equal.
  apply fsum_ext. intros s Hs. rewrite <- (local_value_main N O conn log_psi s D Hs).
  unfold local_value_squared. change (cnorm2 (local_value log_psi s (conn s)), 0) with (emb (cnorm2 (local_value log_psi s (conn s)))).
  rewrite !cnorm2_conj, (cr_conj_mul cC cC_laws). ring.
Qed.

(** O^dagger O *)
Lemma braket_dagger N O psi :
  braket N (apply_op N O psi) (apply_op N O psi) = braket N psi (apply_op N (dagger_times N O) psi).
Proof.
  unfold braket, apply_op, dagger_times.
  transitivity (fsum cC N (fun u => fsum cC N (fun s => fsum cC N (fun t =>
      conj (psi s) * (conj (O u s) * O u t * psi t)))))%C.
  - apply fsum_ext. intros u _. rewrite (conj_fsum cC cC_laws). rewrite <- (fsum_scal_r cC cC_laws).
    apply fsum_ext. intros s _. rewrite (cr_conj_mul cC cC_laws). rewrite <- (fsum_scal cC cC_laws).
    apply fsum_ext. intros t _. ring.
  - rewrite (fsum_swap cC cC_laws). apply fsum_ext. intros s _.
    rewrite <- (fsum_scal cC cC_laws). rewrite (fsum_swap cC cC_laws). apply fsum_ext. intros t _.
    rewrite <- (fsum_scal_r cC cC_laws), <- (fsum_scal cC cC_laws). reflexivity.
Qed.

(** uniform samples are the fractions of configurations *)
Lemma wsum_uniform N samples f : Forall (fun s => (s < N)%nat) samples ->
  wsum (uniform samples) f = fsum cC N (fun s => rscal (fraction samples s) (f s)).
Proof.
  intros F. unfold wsum, uniform, fraction. rewrite map_map. cbn [fst snd].
  set (r := / INR (length samples)). unfold Rdiv. fold r.
  clearbody r. induction samples as [|x l IH].
  - cbn [map lsum count_occ INR]. symmetry. apply fsum_zero; [apply cC_laws|]. intros. unfold rscal. cpx; ring.
  - apply Forall_cons_iff in F. destruct F as [Fx F]. cbn [map lsum]. rewrite IH by exact F.
    transitivity (fsum cC N (fun s => (if (s =? x)%nat then rscal r (f s) else r0 cC) +
       rscal (INR (count_occ Nat.eq_dec l s) * r) (f s))%C).
    + rewrite (fsum_add cC cC_laws). f_equal. symmetry. apply (fsum_delta cC cC_laws N (fun s => rscal r (f s)) x Fx).
    + apply fsum_ext. intros s _. cbn [count_occ]. destruct (Nat.eq_dec x s) as [->|D].
      * rewrite Nat.eqb_refl, S_INR. unfold rscal. cpx; ring.
      * destruct (Nat.eqb_spec s x); [congruence|]. ring.
Qed.

(** ** derivatives *)
Lemma dl_ext f g x l : (forall t, f t = g t) -> derivable_pt_lim f x l -> derivable_pt_lim g x l.
Proof. intros E D eps He. destruct (D eps He) as [d Hd]. exists d. intros h. rewrite <- !E. apply Hd. Qed.
Lemma dl_eq f x l l' : derivable_pt_lim f x l -> l = l' -> derivable_pt_lim f x l'.
Proof. now intros D <-. Qed.
Lemma cderiv_eq f x l l' : cderiv f x l -> l = l' -> cderiv f x l'.
Proof. now intros D <-. Qed.
Lemma cderiv_const c x : cderiv (fun _ => c) x (r0 cC).
Proof. split; apply derivable_pt_lim_const. Qed.
Lemma cderiv_add f g x l m : cderiv f x l -> cderiv g x m -> cderiv (fun t => f t + g t)%C x (l + m)%C.
Proof.
  intros [A B] [A' B']. split; cbn [cC radd fst snd].
  - exact (derivable_pt_lim_plus _ _ _ _ _ A A').
  - exact (derivable_pt_lim_plus _ _ _ _ _ B B').
Qed.
Lemma cderiv_mul f g x l m : cderiv f x l -> cderiv g x m -> cderiv (fun t => f t * g t)%C x (l * g x + f x * m)%C.
Proof.
  intros [A B] [A' B']. split; cbn [cC rmul radd fst snd].
  - refine (dl_eq _ _ _ _ (derivable_pt_lim_minus _ _ _ _ _ (derivable_pt_lim_mult _ _ _ _ _ A A') (derivable_pt_lim_mult _ _ _ _ _ B B')) _). ring.
  - refine (dl_eq _ _ _ _ (derivable_pt_lim_plus _ _ _ _ _ (derivable_pt_lim_mult _ _ _ _ _ A B') (derivable_pt_lim_mult _ _ _ _ _ B A')) _). ring.
Qed.
Lemma cderiv_conj f x l : cderiv f x l -> cderiv (fun t => conj (f t)) x (conj l).
Proof.
  intros [A B]. split; cbn [cC rconj fst snd]; [exact A|]. exact (derivable_pt_lim_opp _ _ _ B).
Qed.
Lemma cderiv_fsum n (f : nat -> R -> cpx) x l : (forall i, (i < n)%nat -> cderiv (f i) x (l i)) ->
  cderiv (fun t => fsum cC n (fun i => f i t)) x (fsum cC n l).
Proof.
  induction n; intros H; cbn [fsum]; [apply cderiv_const|]. apply cderiv_add; [apply IHn; auto|apply H; lia].
Qed.
Lemma cderiv_exp (f : R -> cpx) x l : cderiv f x l -> cderiv (fun t => cexp (f t)) x (l * cexp (f x))%C.
Proof.
  intros [A B].
  pose proof (derivable_pt_lim_comp _ exp x _ _ A (derivable_pt_lim_exp (fst (f x)))) as E.
  pose proof (derivable_pt_lim_comp _ cos x _ _ B (derivable_pt_lim_cos (snd (f x)))) as Co.
  pose proof (derivable_pt_lim_comp _ sin x _ _ B (derivable_pt_lim_sin (snd (f x)))) as Si.
  pose proof (derivable_pt_lim_mult _ _ _ _ _ E Co) as M1.
  pose proof (derivable_pt_lim_mult _ _ _ _ _ E Si) as M2.
  unfold comp, mult_fct in *. split; unfold cexp; cbn [cC rmul fst snd].
  - replace (fst l * (exp (fst (f x)) * cos (snd (f x))) - snd l * (exp (fst (f x)) * sin (snd (f x))))
      with (exp (fst (f x)) * fst l * cos (snd (f x)) + exp (fst (f x)) * (- sin (snd (f x)) * snd l)) by ring. exact M1.
  - replace (fst l * (exp (fst (f x)) * sin (snd (f x))) + snd l * (exp (fst (f x)) * cos (snd (f x))))
      with (exp (fst (f x)) * fst l * sin (snd (f x)) + exp (fst (f x)) * (cos (snd (f x)) * snd l)) by ring. exact M2.
Qed.

Section Gradient.
  Variable N : nat.
  Hypothesis HN : (0 < N)%nat.
  Variable O : nat -> nat -> cpx.
  Hypothesis HO : hermitian N O.
  Variable conn : nat -> list (nat * cpx).
  Hypothesis HC : describes N O conn.

  Lemma braket_swap phi chi : braket N phi (apply_op N O chi) = conj (braket N chi (apply_op N O phi)).
  Proof.
    unfold braket, apply_op. rewrite (conj_fsum cC cC_laws).
    transitivity (fsum cC N (fun s => fsum cC N (fun t => conj (phi s) * (O s t * chi t))))%C.
    - apply fsum_ext. intros s _. symmetry. apply fsum_scal, cC_laws.
    - rewrite (fsum_swap cC cC_laws). apply fsum_ext. intros t Ht.
      rewrite (cr_conj_mul cC cC_laws), (cr_conj_conj cC cC_laws), (conj_fsum cC cC_laws), <- (fsum_scal cC cC_laws).
      apply fsum_ext. intros s Hs. rewrite (cr_conj_mul cC cC_laws), <- (HO s t Hs Ht). ring.
  Qed.
  Lemma braket_real phi : snd (braket N phi (apply_op N O phi)) = 0.
  Proof.
    pose proof (f_equal snd (braket_swap phi phi)) as E. cbn [cC rconj snd] in E.
    set (y := snd (braket N phi (apply_op N O phi))) in *. 
    change (snd (braket N phi (apply_op N O phi))) with y in E. lra.
  Qed.

  Variable log_psi : R -> nat -> cpx.
  Variable x : R.
  Variable g : nat -> cpx.
  Hypothesis HD : forall s, (s < N)%nat -> cderiv (fun t => log_psi t s) x (g s).
  Let psi t := psi_of (log_psi t).
  Let dpsi s : cpx := (g s * psi x s)%C.

  Lemma psi_deriv s : (s < N)%nat -> cderiv (fun t => psi t s) x (dpsi s).
  Proof. intros Hs. exact (cderiv_exp (fun t => log_psi t s) x (g s) (HD s Hs)). Qed.

  Lemma braket_deriv : cderiv (fun t => braket N (psi t) (apply_op N O (psi t))) x
    (braket N dpsi (apply_op N O (psi x)) + braket N (psi x) (apply_op N O dpsi))%C.
  Proof.
    unfold braket. rewrite <- (fsum_add cC cC_laws). apply cderiv_fsum. intros s Hs.
    apply (cderiv_mul (fun t => conj (psi t s)) (fun t => apply_op N O (psi t) s)).
    - apply cderiv_conj, psi_deriv, Hs.
    - unfold apply_op. apply cderiv_fsum. intros t Ht.
      eapply cderiv_eq; [apply (cderiv_mul (fun _ => O s t) (fun r => psi r t)); [apply cderiv_const|apply psi_deriv, Ht]|].
      ring.
  Qed.
  Lemma norm_deriv : derivable_pt_lim (fun t => norm2_of N (psi t)) x (2 * fst (braket N dpsi (psi x))).
  Proof.
    assert (D : cderiv (fun t => braket N (psi t) (psi t)) x (braket N dpsi (psi x) + braket N (psi x) dpsi)%C).
    { unfold braket. rewrite <- (fsum_add cC cC_laws). apply cderiv_fsum. intros s Hs.
      apply (cderiv_mul (fun t => conj (psi t s)) (fun t => psi t s)); [apply cderiv_conj|]; apply psi_deriv, Hs. }
    destruct D as [D _].
    assert (E : fst (braket N dpsi (psi x) + braket N (psi x) dpsi)%C = 2 * fst (braket N dpsi (psi x))).
    { assert (C : braket N (psi x) dpsi = conj (braket N dpsi (psi x))).
      { unfold braket. rewrite (conj_fsum cC cC_laws). apply fsum_ext. intros s _.
        rewrite (cr_conj_mul cC cC_laws), (cr_conj_conj cC cC_laws). ring. }
      rewrite C. cbn [cC radd rconj fst]. ring. }
    rewrite E in D. eapply dl_ext; [|exact D]. reflexivity.
  Qed.

  Let E t := fst (expectation N O (psi t)).
  Let B := braket N (psi x) (apply_op N O (psi x)).
  Let D := norm2_of N (psi x).

  Lemma expectation_deriv : derivable_pt_lim E x
    (2 * (fst (braket N dpsi (apply_op N O (psi x))) - fst B / D * fst (braket N dpsi (psi x))) / D).
  Proof.
    destruct braket_deriv as [A _].
    assert (EA : fst (braket N dpsi (apply_op N O (psi x)) + braket N (psi x) (apply_op N O dpsi))%C
       = 2 * fst (braket N dpsi (apply_op N O (psi x)))).
    { rewrite (braket_swap (psi x) dpsi). cbn [cC radd rconj fst]. ring. }
    rewrite EA in A.
    assert (P : D <> 0) by (pose proof (norm2_pos N (log_psi x) HN); subst D psi; cbv beta; lra).
    pose proof (derivable_pt_lim_div _ _ x _ _ A norm_deriv P) as Q.
    refine (dl_eq _ _ _ _ Q _). fold D. fold B. unfold Rsqr. field. exact P.
  Qed.

  (** the modelled gradient *)
  Lemma vjp_rc_is w c du dv : vjp_rc (rscal w (conj c)) du dv = rscal w (c * conj (du, dv))%C.
  Proof. unfold vjp_rc, rscal. cpx; ring. Qed.

  Lemma grad_real_is :
    grad_real (log_psi x) conn (full_sampling N (psi x)) (fun s => fst (g s)) (fun s => snd (g s))
    = (fst (braket N dpsi (apply_op N O (psi x))) - fst B / D * fst (braket N dpsi (psi x))) / D.
  Proof.
    unfold grad_real, cotangent.
    set (c := centered (log_psi x) conn (full_sampling N (psi x))).
    rewrite (map_ext _ (fun s => rscal (fst s) ((fun s => (c s * conj (g s))%C) (snd s)))).
    2:{ intros s. rewrite vjp_rc_is. cbv beta. destruct (g (snd s)); reflexivity. }
    change (fst (wsum (full_sampling N (psi x)) (fun s => (c s * conj (g s))%C))
      = (fst (braket N dpsi (apply_op N O (psi x))) - fst B / D * fst (braket N dpsi (psi x))) / D).
    rewrite wsum_full. fold D.
    assert (HE : expect false (log_psi x) conn (full_sampling N (psi x)) = emb (fst B / D)).
    { etransitivity; [exact (expect_full N O conn (log_psi x) HC)|]. unfold expectation, over, emb.
      fold (psi x). fold B. fold D. f_equal. unfold B. rewrite braket_real. unfold Rdiv. ring. }
    assert (S : fsum cC N (fun s => emb (cnorm2 (psi x s)) * (c s * conj (g s)))%C
       = (braket N dpsi (apply_op N O (psi x)) - emb (fst B / D) * braket N dpsi (psi x))%C).
    { unfold braket. rewrite <- (fsum_scal cC cC_laws), <- (fsum_sub cC cC_laws). apply fsum_ext. intros s Hs.
      unfold c, centered. rewrite HE. rewrite cnorm2_conj. unfold dpsi. rewrite (cr_conj_mul cC cC_laws).
      pose proof (local_value_main N O conn (log_psi x) s HC Hs) as L. fold (psi x) in L. rewrite <- L. ring. }
    rewrite S. unfold over. cbn [fst]. f_equal. cbn [cC rsub rmul fst emb]. unfold emb. cbn [fst snd].
    ring.
  Qed.

  Lemma gradient_main : exists d, derivable_pt_lim E x d /\
    d = 2 * grad_real (log_psi x) conn (full_sampling N (psi x)) (fun s => fst (g s)) (fun s => snd (g s)).
  Proof.
    eexists. split; [exact expectation_deriv|]. rewrite grad_real_is. unfold Rdiv. ring.
  Qed.
End Gradient.

Lemma vjp_cc_is w c ux uy vx vy : vjp_cc (rscal w (conj c)) ux uy vx vy
  = (fst (vjp_rc (rscal w (conj c)) ux vx), fst (vjp_rc (rscal w (conj c)) uy vy)).
Proof. unfold vjp_cc, jax_vjp, vjp_rc, rscal. cpx; ring. Qed.

Lemma lsum_pair {A} (f h : A -> R) (l : list A) :
  lsum cC (map (fun a => (f a, h a)) l) = (lsum rR (map f l), lsum rR (map h l)).
Proof. induction l as [|a l IH]; [reflexivity|]. cbn [map lsum]. rewrite IH. reflexivity. Qed.
Lemma fst_lsum_map {A} (f : A -> cpx) (l : list A) : fst (lsum cC (map f l)) = lsum rR (map (fun a => fst (f a)) l).
Proof. induction l as [|a l IH]; [reflexivity|]. cbn [map lsum]. rewrite <- IH. reflexivity. Qed.

Lemma grad_complex_is log_psi conn samples ux uy vx vy :
  grad_complex log_psi conn samples ux uy vx vy
  = (grad_real log_psi conn samples ux vx, grad_real log_psi conn samples uy vy).
Proof.
  unfold grad_complex, grad_real. rewrite !fst_lsum_map. rewrite <- lsum_pair. f_equal. apply map_ext. intros s.
  apply vjp_cc_is.
Qed.

Lemma complex_main N O conn (log_psi : R -> R -> nat -> cpx) x y (gx gy : nat -> cpx) :
  (0 < N)%nat -> hermitian N O -> describes N O conn ->
  (forall s, (s < N)%nat -> cderiv (fun t => log_psi t y s) x (gx s) /\ cderiv (fun t => log_psi x t s) y (gy s)) ->
  exists dx dy,
    derivable_pt_lim (fun t => fst (expectation N O (psi_of (log_psi t y)))) x dx /\
    derivable_pt_lim (fun t => fst (expectation N O (psi_of (log_psi x t)))) y dy /\
    grad_complex (log_psi x y) conn (full_sampling N (psi_of (log_psi x y)))
      (fun s => fst (gx s)) (fun s => fst (gy s)) (fun s => snd (gx s)) (fun s => snd (gy s))
    = (dx / 2, dy / 2).
Proof.
  intros HN HO HC HD.
  destruct (gradient_main N HN O HO conn HC (fun t => log_psi t y) x gx (fun s Hs => proj1 (HD s Hs))) as [dx [Dx Ex]].
  destruct (gradient_main N HN O HO conn HC (fun t => log_psi x t) y gy (fun s Hs => proj2 (HD s Hs))) as [dy [Dy Ey]].
  exists dx, dy. split; [exact Dx|]. split; [exact Dy|]. rewrite grad_complex_is. f_equal; lra.
Qed.

Lemma grad_rr_is log_psi conn samples du :
  grad_real_rr log_psi conn samples du = grad_real log_psi conn samples du (fun _ => 0).
Proof.
  unfold grad_real_rr, grad_real. rewrite !fst_lsum_map. f_equal. apply map_ext. intros s.
  unfold vjp_rr, vjp_rc. cbn [cC radd rmul rconj fst snd]. ring.
Qed.
Lemma grad_cr_is log_psi conn samples ux uy :
  grad_complex_cr log_psi conn samples ux uy = grad_complex log_psi conn samples ux uy (fun _ => 0) (fun _ => 0).
Proof.
  unfold grad_complex_cr, grad_complex. f_equal. apply map_ext. intros s.
  unfold vjp_cr, vjp_cc, jax_vjp. cpx; ring.
Qed.

(** ** a wave function with one real parameter *)
Definition wit_O (s t : nat) : cpx := if andb (s =? 1)%nat (t =? 1)%nat then (1, 0) else (0, 0).
Definition wit_conn (s : nat) : list (nat * cpx) := [(s, wit_O s s)].
Definition wit_log (t : R) (s : nat) : cpx := if (s =? 1)%nat then (t, 0) else (0, 0).
Definition wit_g (s : nat) : cpx := if (s =? 1)%nat then (1, 0) else (0, 0).
Lemma wit_hermitian : hermitian 2 wit_O.
Proof.
  intros s t Hs Ht. destruct s as [|[|s]], t as [|[|t]]; try lia; unfold wit_O; cbn [Nat.eqb andb]; cpx; ring.
Qed.
Lemma wit_describes : describes 2 wit_O wit_conn.
Proof.
  intros s Hs. split; [constructor; [exact Hs|constructor]|]. intros t Ht.
  destruct s as [|[|s]], t as [|[|t]]; try lia; unfold wit_conn, wit_O; cbn [filter fst snd Nat.eqb andb map lsum]; cpx; ring.
Qed.
Lemma wit_deriv x s : cderiv (fun t => wit_log t s) x (wit_g s).
Proof.
  unfold wit_log, wit_g. destruct (s =? 1)%nat; [|apply cderiv_const]. split; cbn [fst snd].
  - apply derivable_pt_lim_id.
  - apply derivable_pt_lim_const.
Qed.
Lemma wit_sampling : full_sampling 2 (psi_of (wit_log 0)) = [(/ 2, 0%nat); (/ 2, 1%nat)].
Proof.
  assert (B : forall s, (s < 2)%nat -> born 2 (psi_of (wit_log 0)) s = / 2).
  { intros s Hs. unfold born. rewrite norm2_sum. cbn [fsum rR radd r0]. unfold cnorm2, psi_of, wit_log.
    destruct s as [|[|s]]; try lia; cbn [Nat.eqb fst snd]; rewrite ?exp_0, ?cos_0, ?sin_0; field. }
  unfold full_sampling. cbn [seq map]. now rewrite !B by lia.
Qed.
Lemma wit_grad : grad_real (wit_log 0) wit_conn (full_sampling 2 (psi_of (wit_log 0)))
  (fun s => fst (wit_g s)) (fun s => snd (wit_g s)) = / 4.
Proof.
  rewrite wit_sampling. unfold grad_real, cotangent, centered, expect, wsum, local_value, wit_conn, wit_O, wit_log, wit_g, vjp_rc, rscal.
  cbn [map lsum fst snd Nat.eqb andb cC radd rsub rmul rconj r0]. unfold cexp. cbn [fst snd].
  replace (0 - 0) with 0 by ring. rewrite ?exp_0, ?cos_0, ?sin_0. field.
Qed.
Lemma wit_expectation t : fst (expectation 2 wit_O (psi_of (wit_log t))) = exp (2 * t) / (1 + exp (2 * t)).
Proof.
  unfold expectation, over. cbn [fst]. f_equal.
  - unfold braket, apply_op, wit_O, psi_of, wit_log. cbn [fsum Nat.eqb andb fst snd cC radd rmul rconj r0].
    rewrite ?exp_0, ?cos_0, ?sin_0. replace (2 * t) with (t + t) by ring. rewrite exp_plus. ring.
  - f_equal. rewrite norm2_sum. cbn [fsum rR radd r0]. unfold cnorm2, psi_of, wit_log. cbn [Nat.eqb fst snd].
    rewrite ?exp_0, ?cos_0, ?sin_0. replace (2 * t) with (t + t) by ring. rewrite exp_plus. ring.
Qed.

Lemma real_refuted : exists N O conn (log_psi : R -> nat -> cpx) x (g : nat -> cpx),
  (0 < N)%nat /\ hermitian N O /\ describes N O conn /\
  (forall s, (s < N)%nat -> cderiv (fun t => log_psi t s) x (g s)) /\
  derivable_pt_lim (fun t => fst (expectation N O (psi_of (log_psi t)))) x (1 / 2) /\
  grad_real (log_psi x) conn (full_sampling N (psi_of (log_psi x))) (fun s => fst (g s)) (fun s => snd (g s)) = 1 / 4.
Proof.
  exists 2%nat, wit_O, wit_conn, wit_log, 0, wit_g. split; [lia|]. split; [apply wit_hermitian|].
  split; [apply wit_describes|]. split; [intros; apply wit_deriv|]. split; [|rewrite wit_grad; lra].
  destruct (gradient_main 2 ltac:(lia) wit_O wit_hermitian wit_conn wit_describes wit_log 0 wit_g (fun s _ => wit_deriv 0 s)) as [d [D E]].
  rewrite wit_grad in E. refine (dl_eq _ _ _ _ D _). lra.
Qed.

Lemma squared_main N O conn log_psi : describes N O conn ->
  expect true log_psi conn (full_sampling N (psi_of log_psi)) = expectation N (dagger_times N O) (psi_of log_psi).
Proof. intros D. rewrite (expect_squared N O conn log_psi D). unfold expectation. now rewrite braket_dagger. Qed.

Lemma samples_main N squared log_psi conn samples : Forall (fun s => (s < N)%nat) samples ->
  expect squared log_psi conn (uniform samples)
  = fsum cC N (fun s => rscal (fraction samples s)
      ((if squared then local_value_squared else local_value) log_psi s (conn s))).
Proof. intros F. apply (wsum_uniform N samples _ F). Qed.
Lemma complex_real_output N O conn (log_psi : R -> R -> nat -> cpx) x y (gx gy : nat -> R) :
  (0 < N)%nat -> hermitian N O -> describes N O conn ->
  (forall s, (s < N)%nat -> cderiv (fun t => log_psi t y s) x (gx s, 0) /\ cderiv (fun t => log_psi x t s) y (gy s, 0)) ->
  exists dx dy,
    derivable_pt_lim (fun t => fst (expectation N O (psi_of (log_psi t y)))) x dx /\
    derivable_pt_lim (fun t => fst (expectation N O (psi_of (log_psi x t)))) y dy /\
    grad_complex_cr (log_psi x y) conn (full_sampling N (psi_of (log_psi x y))) gx gy = (dx / 2, dy / 2).
Proof.
  intros HN HO HC HD. rewrite grad_cr_is.
  exact (complex_main N O conn log_psi x y (fun s => (gx s, 0)) (fun s => (gy s, 0)) HN HO HC HD).
Qed.
Lemma real_main N O conn (log_psi : R -> nat -> cpx) x (g : nat -> cpx) :
  (0 < N)%nat -> hermitian N O -> describes N O conn ->
  (forall s, (s < N)%nat -> cderiv (fun t => log_psi t s) x (g s)) ->
  derivable_pt_lim (fun t => fst (expectation N O (psi_of (log_psi t)))) x
    (2 * grad_real (log_psi x) conn (full_sampling N (psi_of (log_psi x))) (fun s => fst (g s)) (fun s => snd (g s))).
Proof.
  intros HN HO HC HD. destruct (gradient_main N HN O HO conn HC log_psi x g HD) as [d [D E]].
  exact (dl_eq _ _ _ _ D E).
Qed.
Lemma real_output N O conn (log_psi : R -> nat -> cpx) x (g : nat -> R) :
  (0 < N)%nat -> hermitian N O -> describes N O conn ->
  (forall s, (s < N)%nat -> cderiv (fun t => log_psi t s) x (g s, 0)) ->
  derivable_pt_lim (fun t => fst (expectation N O (psi_of (log_psi t)))) x
    (2 * grad_real_rr (log_psi x) conn (full_sampling N (psi_of (log_psi x))) g).
Proof.
  intros HN HO HC HD. rewrite grad_rr_is. exact (real_main N O conn log_psi x (fun s => (g s, 0)) HN HO HC HD).
Qed.
