From Coq Require Import List Arith Lia Bool Reals Lra ZArith.
From Verif Require Import Base Rings ARNN_Model ARNN_Proofs ToArray_Model Estim_Model Estim_Spec Estim_Proofs Ansatz_Model Ansatz_Spec Ansatz_Proofs
  LegRbm_Model LegRbm_Spec LegRbm_Proofs LegRbm_Phase LegDm_Model LegDm_Spec LegDm_Proofs LegDm_Net.
Import ListNotations.
Open Scope R_scope.

Section Nets.
  Variables (n a b : nat) (ok : config -> Prop).
  Hypothesis Hok : forall x, ok x -> sized n x.
  Lemma spin_form p x y : ok x -> ok y -> rho_of (as_machine (ndm_spin n a b p)) x y =
    (cprod a (fun j => legamp (theta_r n p x j)) * conj (cprod a (fun j => legamp (theta_r n p y j)))
     * cprod b (fun j => legamp (unit_m n p x j + conj (unit_m n p y j))))%C.
  Proof. intros Hx Hy. exact (spin_rho_is n a b p x y (Hok x Hx) (Hok y Hy)). Qed.
  Lemma spin_herm p : hermitian ok (rho_of (as_machine (ndm_spin n a b p))).
  Proof. exact (kernel_hermitian _ _ _ _ _ _ (spin_form p)). Qed.
  Lemma spin_diag p x : ok x -> 0 <= fst (rho_of (as_machine (ndm_spin n a b p)) x x) /\ snd (rho_of (as_machine (ndm_spin n a b p)) x x) = 0.
  Proof. exact (kernel_diagonal _ _ _ _ _ _ (spin_form p) x). Qed.
  Lemma spin_psd p : (forall x y j, ok x -> ok y -> (j < b)%nat -> off_axis (theta_m n p x y j)) ->
    positive_semidefinite ok (rho_of (as_machine (ndm_spin n a b p))).
  Proof.
    intros H. apply gram_psd. apply (kernel_gram _ _ _ _ _ _ (spin_form p)). intros x y j Hx Hy Hj. rewrite <- theta_m_unit. apply H; assumption.
  Qed.
  Section Phase.
    Variables (p : phase_par) (bm bp : nat -> R).
    Hypotheses (Em : b_mod p = Some bm) (Ep : b_phs p = Some bp).
    Lemma phase_form x y : ok x -> ok y -> rho_of (as_machine (ndm_phase n a b p)) x y =
      (phase_factor n a p bm bp x * conj (phase_factor n a p bm bp y)
       * cprod b (fun j => legamp (unit_x n p x j + conj (unit_x n p y j))))%C.
    Proof. intros Hx Hy. exact (phase_rho_is n a b p bm bp x y Em Ep (Hok x Hx) (Hok y Hy)). Qed.
    Lemma phase_herm : hermitian ok (rho_of (as_machine (ndm_phase n a b p))).
    Proof. exact (kernel_hermitian _ _ _ _ _ _ phase_form). Qed.
    Lemma phase_diag x : ok x -> 0 <= fst (rho_of (as_machine (ndm_phase n a b p)) x x) /\ snd (rho_of (as_machine (ndm_phase n a b p)) x x) = 0.
    Proof. exact (kernel_diagonal _ _ _ _ _ _ phase_form x). Qed.
    Lemma phase_psd : (forall x y j, ok x -> ok y -> (j < b)%nat -> off_axis (theta_x n p x y j)) ->
      positive_semidefinite ok (rho_of (as_machine (ndm_phase n a b p))).
    Proof.
      intros H. apply gram_psd. apply (kernel_gram _ _ _ _ _ _ phase_form). intros x y j Hx Hy Hj. rewrite <- theta_x_unit. apply H; assumption.
    Qed.
    Lemma phase_some x y : sized n x -> sized n y -> exists l, ndm_phase n a b p x (Some y) = Ok l.
    Proof.
      intros Hx Hy. unfold ndm_phase, dminput. rewrite (split2_app n x y Hx Hy). cbn [bind]. rewrite Em, Ep, !row_col_is. cbn [bind]. eexists. reflexivity.
    Qed.
  End Phase.
  Lemma spin_some p x y : sized n x -> sized n y -> exists l, ndm_spin n a b p x (Some y) = Ok l.
  Proof. intros Hx Hy. unfold ndm_spin, dminput. rewrite (split2_app n x y Hx Hy). eexists. reflexivity. Qed.
End Nets.

(** ** the counterexamples *)
Definition w2 : nat -> nat -> R := fun _ _ => ln 2 / 2.
Definition wi : nat -> nat -> R := fun i _ => if (i =? 0)%nat then PI / 2 else 0.
Definition zero2 : nat -> nat -> R := fun _ _ => 0.
Definition bad_spin : purif := Purif zero2 zero2 w2 wi None.
Definition bad_phase : phase_par := PhasePar zero2 (Some (fun _ => 0)) zero2 (Some (fun _ => 0)) (fun i j => 2 * w2 i j) (fun i j => 2 * wi i j) None None.
Lemma sum2_th x y : th x y = (rdot 2 x w2 wi 0 + conj (rdot 2 y w2 wi 0))%C.
Proof. unfold th, rdot, fsum, w2, wi, cfg. cbn. f_equal; field. Qed.
Lemma quad_ext (k k' : config -> config -> cpx) v : (forall x y, In x (map snd v) -> In y (map snd v) -> k x y = k' x y) -> quadratic k v = quadratic k' v.
Proof.
  intros H. unfold quadratic. f_equal. apply map_ext_in. intros e He. f_equal. apply map_ext_in. intros e' He'. rewrite H by (apply in_map; assumption). reflexivity.
Qed.
Lemma vec4_sized x : In x (map snd vec4) -> sized 2 x.
Proof. cbn. intros [<-|[<-|[<-|[<-|[]]]]]; reflexivity. Qed.
Lemma one_l (z w : cpx) : ((1, 0) * conj (1, 0) * ((1, 0) * z))%C = z.
Proof. cpx; ring. Qed.
Lemma bad_spin_is x y : sized 2 x -> sized 2 y -> rho_of (as_machine (ndm_spin 2 0 1 bad_spin)) x y = bad x y.
Proof.
  intros Hx Hy. rewrite (spin_rho_is 2 0 1 bad_spin x y Hx Hy : rho_of _ x y = _). cbn [cprod].
  etransitivity; [apply one_l; exact (r0 cC)|]. unfold bad. f_equal. rewrite sum2_th. unfold unit_m. cbn [p_bias p_vr p_vi bad_spin].
  generalize (rdot 2 x w2 wi 0), (rdot 2 y w2 wi 0). intros u w. cpx; ring.
Qed.
Lemma half_twice n x W W' j : rdot n x (half (fun i j => 2 * W i j)) (half (fun i j => 2 * W' i j)) j = rdot n x W W' j.
Proof. unfold rdot. apply (fsum_ext cC). intros i _. unfold half. f_equal. f_equal; field. Qed.
Lemma bad_phase_is x y : sized 2 x -> sized 2 y -> rho_of (as_machine (ndm_phase 2 0 1 bad_phase)) x y = bad x y.
Proof.
  intros Hx Hy. rewrite (phase_rho_is 2 0 1 bad_phase (fun _ => 0) (fun _ => 0) x y eq_refl eq_refl Hx Hy : rho_of _ x y = _). cbn [cprod].
  assert (F : forall z, phase_factor 2 0 bad_phase (fun _ => 0) (fun _ => 0) z = (1, 0)).
  { intros z. unfold phase_factor, layer. cbn. replace (1 / 2 * 0 + 0) with 0 by ring. unfold cexp. cbn [fst snd]. rewrite exp_0, cos_0, sin_0. f_equal; ring. }
  rewrite !F. etransitivity; [apply one_l; exact (r0 cC)|]. unfold bad. f_equal. rewrite sum2_th. unfold unit_x. cbn [d_r u_r u_i bad_phase]. rewrite !half_twice.
  generalize (rdot 2 x w2 wi 0), (rdot 2 y w2 wi 0). intros u w. cpx; ring.
Qed.
Lemma spin_refuted : exists p, ~ positive_semidefinite (sized 2) (rho_of (as_machine (ndm_spin 2 0 1 p))).
Proof.
  exists bad_spin. intros H. specialize (H vec4). destruct H as [H _].
  - apply Forall_forall. intros e He. apply vec4_sized, in_map, He.
  - pose proof bad_negative as N. rewrite (quad_ext _ bad vec4) in H; [lra|]. intros x y Hx Hy. apply bad_spin_is; apply vec4_sized; assumption.
Qed.
Lemma phase_refuted : exists p bm bp, b_mod p = Some bm /\ b_phs p = Some bp /\
  ~ positive_semidefinite (sized 2) (rho_of (as_machine (ndm_phase 2 0 1 p))).
Proof.
  exists bad_phase, (fun _ => 0), (fun _ => 0). split; [reflexivity|]. split; [reflexivity|]. intros H. specialize (H vec4). destruct H as [H _].
  - apply Forall_forall. intros e He. apply vec4_sized, in_map, He.
  - pose proof bad_negative as N. rewrite (quad_ext _ bad vec4) in H; [lra|]. intros x y Hx Hy. apply bad_phase_is; apply vec4_sized; assumption.
Qed.
(** two spins up or down *)
Definition two : list config := [[1]; [-1]].
Definition corr : machine := fun x y => Some (ln 2 * (nth 0 x 0 * nth 0 y 0), 0).
Lemma rho_corr x y : rho_of corr x y = (exp (ln 2 * (nth 0 x 0 * nth 0 y 0)), 0).
Proof. unfold rho_of, corr, amplitude. apply cexp_real. Qed.
Lemma corr_up : exp (ln 2 * (1 * 1)) = 2 /\ exp (ln 2 * (-1 * -1)) = 2 /\ exp (ln 2 * (1 * -1)) = 1 / 2 /\ exp (ln 2 * (-1 * 1)) = 1 / 2.
Proof.
  replace (ln 2 * (1 * 1)) with (ln 2) by ring. replace (ln 2 * (-1 * -1)) with (ln 2) by ring.
  replace (ln 2 * (1 * -1)) with (- ln 2) by ring. replace (ln 2 * (-1 * 1)) with (- ln 2) by ring.
  rewrite exp_Ropp, exp_ln by lra. repeat split; field.
Qed.
Lemma corr_trace : trace_of corr two = (4, 0).
Proof. unfold trace_of, two. cbn [map lsum fold_right]. rewrite !rho_corr. cbn [nth]. destruct corr_up as (-> & -> & _). cbn. f_equal; ring. Qed.
Lemma array_ok m states nrm q qs : concat states = q :: qs -> exists v, to_array true m states nrm = Ok v.
Proof. intros H. unfold to_array. cbn [negb]. rewrite H. eexists. reflexivity. Qed.
Lemma true_refuted : exists m states v, to_array true m states NTrue = Ok v /\ trace_of m states <> r0 cC /\
  lsum cC (map (fun k => nth (k * length states + k) v (r0 cC)) (seq 0 (length states))) <> r1 cC.
Proof.
  destruct (array_ok corr two NTrue 1 [-1] eq_refl) as [v Hv]. exists corr, two, v. split; [exact Hv|]. split.
  { rewrite corr_trace. intros E. injection E. lra. }
  destruct (array_norm corr two NTrue v (or_introl eq_refl) Hv) as [Hn (c & Hc & Hx)].
  { exists (corr [1] [1]). split; [left; reflexivity|]. change (amplitude (corr [1] [1])) with (rho_of corr [1] [1]). rewrite rho_corr. cbn [nth]. intros E. apply (f_equal fst) in E. cbn in E. pose proof (exp_pos (ln 2 * (1 * 1))). lra. }
  pose proof (Hx 0%nat 0%nat ltac:(cbn; lia) ltac:(cbn; lia)) as E0. pose proof (Hx 0%nat 1%nat ltac:(cbn; lia) ltac:(cbn; lia)) as E1.
  pose proof (Hx 1%nat 0%nat ltac:(cbn; lia) ltac:(cbn; lia)) as E2. pose proof (Hx 1%nat 1%nat ltac:(cbn; lia) ltac:(cbn; lia)) as E3.
  pose proof (array_len _ _ _ _ Hv) as L. rewrite !rho_corr in *. unfold at_pos in *. cbn [nth two length Nat.mul Nat.add] in *.
  destruct corr_up as (C1 & C2 & C3 & C4). rewrite C1 in E0. rewrite C3 in E1. rewrite C4 in E2. rewrite C2 in E3.
  destruct v as [|v0 [|v1 [|v2 [|v3 [|]]]]]; try discriminate. cbn [nth] in *. subst v0 v1 v2 v3. unfold rscal, cnorm2 in Hn. cbn [map fold_right fst snd] in Hn.
  cbn [seq map lsum fold_right Nat.mul Nat.add nth]. intros E. apply (f_equal fst) in E. unfold rscal in E. cbn in E.
  assert (Ec : c = 1 / 4) by lra. rewrite Ec in Hn. lra.
Qed.
Lemma bare_refuted : exists m states v, to_array true m states NFalse = Ok v /\
  ~ forall i j, (i < length states)%nat -> (j < length states)%nat -> nth (i * length states + j) v (r0 cC) = rho_of m (at_pos states i) (at_pos states j).
Proof.
  destruct (array_ok corr two NFalse 1 [-1] eq_refl) as [v Hv]. exists corr, two, v. split; [exact Hv|]. intros H.
  destruct (array_bare corr two v Hv) as (x & _ & Hm & Hx). specialize (H 0%nat 0%nat ltac:(cbn; lia) ltac:(cbn; lia)). specialize (Hx 0%nat 0%nat ltac:(cbn; lia) ltac:(cbn; lia)).
  rewrite Hx in H. rewrite rho_corr in H. unfold at_pos in H. cbn [nth two] in H. destruct corr_up as (C & _). rewrite C in H. apply (f_equal fst) in H. unfold rscal in H. cbn [fst] in H.
  assert (E : exp (- x) < 1). { rewrite <- exp_0. apply exp_increasing. specialize (Hm 1 (or_introl eq_refl)). lra. } lra.
Qed.
Lemma bare_matrix_refuted : exists m states M, to_matrix true m states NFalse = Ok M /\
  ~ forall i j, (i < length states)%nat -> (j < length states)%nat -> nth j (nth i M []) (r0 cC) = rho_of m (at_pos states i) (at_pos states j).
Proof.
  destruct (array_ok corr two NTrace 1 [-1] eq_refl) as [v Hv].
  assert (HM : exists M, to_matrix true corr two NFalse = Ok M) by (unfold to_matrix; cbn [negb]; rewrite Hv; eexists; reflexivity).
  destruct HM as [M HM]. exists corr, two, M. split; [exact HM|]. intros H.
  destruct (matrix_main corr two NFalse M HM) as (_ & _ & _ & T). { rewrite corr_trace. intros Z. injection Z. lra. }
  cbn [length two seq map lsum fold_right] in T. rewrite (H 0%nat 0%nat), (H 1%nat 1%nat) in T by (cbn; lia). rewrite !rho_corr in T. unfold at_pos in T. cbn [nth two] in T.
  destruct corr_up as (C1 & C2 & _). rewrite C1, C2 in T. apply (f_equal fst) in T. cbn in T. lra.
Qed.
Lemma matrix_states m states nrm q qs : concat states = q :: qs -> exists M, to_matrix true m states nrm = Ok M.
Proof. intros H. unfold to_matrix. cbn [negb]. destruct (array_ok m states NTrace q qs H) as [v ->]. eexists. reflexivity. Qed.
Lemma not_indexable m states nrm : to_matrix false m states nrm = Err RuntimeError /\ to_array false m states nrm = Err RuntimeError /\ log_trace false m states = Err RuntimeError.
Proof. repeat split. Qed.
(** the matrix of a positive machine is a density matrix *)
Lemma trace_real (ok : config -> Prop) m states : Forall ok states -> positive_semidefinite ok (rho_of m) -> exists t, 0 <= t /\ trace_of m states = (t, 0).
Proof.
  intros H P. induction states as [|s l IH]; [exists 0; split; [lra|reflexivity]|]. inversion H as [|s' l' Hs Hl]; subst. destruct (IH Hl) as (t & T0 & T).
  destruct (P [((1, 0), s)]) as [P1 P2]. { apply Forall_cons; [exact Hs|apply Forall_nil]. }
  unfold quadratic in P1, P2. cbn [map lsum fold_right fst snd] in P1, P2. cbn in P1, P2.
  exists (fst (rho_of m s s) + t). split; [lra|]. unfold trace_of in *. cbn [map lsum fold_right]. fold (lsum cC (map (fun s => rho_of m s s) l)). rewrite T.
  apply injective_projections; cbn; [reflexivity|lra].
Qed.
Lemma quad_scaled {X Y} (k : Y -> Y -> cpx) (k' : X -> X -> cpx) (f : X -> Y) c v :
  (forall x y, In x (map snd v) -> In y (map snd v) -> k (f x) (f y) = (emb c * k' x y)%C) ->
  quadratic k (map (fun e => (fst e, f (snd e))) v) = (emb c * quadratic k' v)%C.
Proof.
  intros H. unfold quadratic. rewrite map_map. cbn [fst snd].
  assert (L : forall (w : list (cpx * X)) g h, (forall e, In e w -> g e = (emb c * h e)%C) -> lsum cC (map g w) = (emb c * lsum cC (map h w))%C).
  { clear. intros w g h. induction w as [|e w IH]; intros Hw; [cbn; f_equal; ring|]. cbn [map lsum fold_right]. fold (lsum cC (map g w)). fold (lsum cC (map h w)).
    rewrite (Hw e (or_introl eq_refl)), IH by (intros; apply Hw; right; assumption). rg. }
  apply L. intros e He. rewrite map_map. cbn [fst snd]. apply L. intros e' He'. rewrite H by (apply in_map; assumption). rg.
Qed.
Lemma matrix_density (ok : config -> Prop) m states nrm M : Forall ok states -> hermitian ok (rho_of m) -> positive_semidefinite ok (rho_of m) ->
  trace_of m states <> r0 cC -> to_matrix true m states nrm = Ok M ->
  let k := fun i j => nth j (nth i M []) (r0 cC) in
  hermitian (fun i => (i < length states)%nat) k /\ positive_semidefinite (fun i => (i < length states)%nat) k /\
  lsum cC (map (fun i => k i i) (seq 0 (length states))) = r1 cC.
Proof.
  intros Ho Hh Hp Ht HM k. destruct (matrix_main m states nrm M HM Ht) as (_ & _ & E & T). split; [|split; [|exact T]].
  - intros i j Hi Hj. destruct (trace_real ok m states Ho Hp) as (t & T0 & Et). apply (cancel_l (trace_of m states)); [exact Ht|]. unfold k.
    rewrite (E i j Hi Hj). rewrite (Hh (at_pos states i) (at_pos states j)).
    + rewrite <- (E j i Hj Hi). rewrite (conj_mul _ _ : rconj cC _ = _). f_equal. rewrite Et. cbn. f_equal; ring.
    + rewrite Forall_forall in Ho. apply Ho, nth_In, Hi.
    + rewrite Forall_forall in Ho. apply Ho, nth_In, Hj.
  - intros v Hv. destruct (trace_real ok m states Ho Hp) as (t & T0 & Et).
    assert (Hin : forall x, In x (map snd v) -> (x < length states)%nat). { intros x Hx. apply in_map_iff in Hx. destruct Hx as (e & <- & He). rewrite Forall_forall in Hv. exact (Hv e He). }
    pose proof (quad_scaled (rho_of m) k (at_pos states) t v) as Q.
    destruct (Hp (map (fun e => (fst e, at_pos states (snd e))) v)) as [P1 P2].
    { apply Forall_forall. intros e' He'. apply in_map_iff in He'. destruct He' as (e & <- & He). cbn [snd]. rewrite Forall_forall in Ho. apply Ho, nth_In, Hin, in_map, He. }
    rewrite Q in P1, P2. 2,3: intros x y Hx Hy; symmetry; change (emb t) with ((t, 0) : cpx); rewrite <- Et; apply E; apply Hin; assumption.
    assert (Tp : 0 < t). { destruct T0 as [T0|T0]; [exact T0|]. exfalso. apply Ht. rewrite Et, <- T0. reflexivity. }
    destruct (quadratic k v) as [qr qi]. cbn in P1, P2. cbn [fst snd]. split.
    + apply Rmult_le_reg_l with t; [exact Tp|]. lra.
    + apply Rmult_eq_reg_l with t; [lra|lra].
Qed.
Lemma log_trace_always_low m states : (2 <= length states)%nat -> (forall s, In s states -> exists d, m s s = Some (d, 0)) ->
  exists r, log_trace true m states = Ok (Some r) /\ exp r < fst (trace_of m states).
Proof.
  intros L H. assert (D : exists ds, map (fun s => m s s) states = map (fun d => Some d) ds /\ fst (trace_of m states) = rsums (map (fun d => exp (fst d)) ds)).
  { clear L. induction states as [|s l IH]; [exists []; split; reflexivity|]. destruct IH as (ds & E & T); [intros; apply H; right; assumption|].
    destruct (H s (or_introl eq_refl)) as [d Hd]. exists ((d, 0) :: ds). split; [cbn [map]; rewrite Hd, E; reflexivity|].
    unfold trace_of in *. cbn [map lsum fold_right rsums]. cbn [radd cC fst]. f_equal; [|exact T]. unfold rho_of. rewrite Hd. cbn [amplitude]. rewrite cexp_real. reflexivity. }
  destruct D as (ds & E & T). destruct (log_trace_low m states ds L E) as (r & Hr & Hl). exists r. split; [exact Hr|]. rewrite T.
  assert (ds <> []) by (intros ->; apply (f_equal (@length _)) in E; rewrite !map_length in E; cbn in E; lia).
  pose proof (exp_sum_pos ds H0) as P. apply exp_increasing in Hl. rewrite exp_ln in Hl by exact P. exact Hl.
Qed.
Lemma log_trace_exact m s d : m s s = Some d -> snd d = 0 -> exists r, log_trace true m [s] = Ok (Some r) /\ trace_of m [s] = (exp r, 0).
Proof.
  intros H Hd. eexists. split; [apply (log_trace_one m s d H)|]. rewrite ln_exp. unfold trace_of, rho_of. cbn [map lsum fold_right]. rewrite H. destruct d as [x y]. cbn in Hd. subst y.
  cbn [amplitude]. rewrite cexp_real. cbn. f_equal; ring.
Qed.
(** RbmSpin *)
Lemma dm_joined m (xr xc : list (list cpx)) : length xr = length xc ->
  dm_rbm_log_val m xr (Some xc) = dm_rbm_log_val m (map (fun q => fst q ++ snd q) (combine xr xc)) None.
Proof. intros H. unfold dm_rbm_log_val. rewrite H, Nat.eqb_refl. reflexivity. Qed.
