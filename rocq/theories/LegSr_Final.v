From Coq Require Import String List Arith ZArith Lia Bool Reals Lra.
From Verif Require Import Base Rings ARNN_Model ARNN_Proofs ToArray_Model Estim_Model Estim_Spec Estim_Proofs
  Balance_Spec Balance_Proofs LegQsr_Spec LegQsr_Proofs LegVmc_Model LegVmc_Proofs LegSr_Model LegSr_Spec LegSr_Proofs.
Import ListNotations.
Open Scope R_scope.
Ltac rring := match goal with |- ?a = ?b => change (@eq R a b) end; ring.

Lemma solves_ext n M M' b b' x : (forall i j, M i j = M' i j) -> (forall i, b i = b' i) -> solves n M b x -> solves n M' b' x.
Proof. intros E Eb H i Hi. rewrite <- Eb, <- (H i Hi). apply (fsum_ext cC). intros j _. rewrite E. reflexivity. Qed.
Lemma natural_c n shift samples f x : natural n true shift samples f x <-> solves n (reg shift samples) f x.
Proof.
  split; intros H i Hi; specialize (H i Hi).
  - etransitivity; [exact (reg_mul n shift samples x i Hi)|exact H].
  - cbn [natural]. etransitivity; [symmetry; exact (reg_mul n shift samples x i Hi)|exact H].
Qed.
Lemma natural_r n shift samples f x : natural n false shift samples f x <-> real_vec n x /\ solves n (re_mat (reg shift samples)) (re_vec f) x.
Proof.
  assert (A : forall i, (i < n)%nat -> fsum cC n (fun j => (re_mat (reg shift samples) i j * x j)%C)
    = (fsum rR n (fun j => fst (cov samples i j) * fst (x j)) + shift * fst (x i), fsum rR n (fun j => fst (reg shift samples i j) * snd (x j)))).
  { intros i Hi.
    apply injective_projections; [rewrite fst_fsum|rewrite snd_fsum]; cbn [fst snd].
    - pose proof (reg_mul n shift samples (re_vec x) i Hi) as E. apply (f_equal fst) in E. rewrite fst_fsum in E.
      transitivity (fsum rR n (fun j => fst (reg shift samples i j * re_vec x j)%C)); [apply (fsum_ext rR); intros j _; unfold re_mat, re_vec; cbn; ring|].
      rewrite E. cbn [radd cC fst]. rewrite fst_fsum. unfold rscal, re_vec. cbn [fst]. f_equal.
      apply (fsum_ext rR). intros j _. cbn. ring.
    - apply (fsum_ext rR). intros j _. unfold re_mat. cbn. ring. }
  split.
  - intros H. split; [intros i Hi; apply (H i Hi)|]. intros i Hi. rewrite (A i Hi). destruct (H i Hi) as [_ E]. unfold re_vec. rewrite E. f_equal.
    apply (fsum_zero rR rR_laws). intros j Hj. destruct (H j Hj) as [Z _]. rewrite Z. cbn. ring.
  - intros [Hr Hs] i Hi. split; [apply Hr, Hi|]. specialize (Hs i Hi). rewrite (A i Hi) in Hs. apply (f_equal fst) in Hs. exact Hs.
Qed.
Lemma re_solves n M f x : solves n (re_mat M) (re_vec f) x -> real_vec n (re_vec x) /\ solves n (re_mat M) (re_vec f) (re_vec x).
Proof.
  intros H. split; [intros i _; reflexivity|]. intros i Hi. specialize (H i Hi).
  apply injective_projections; [rewrite fst_fsum|rewrite snd_fsum].
  - apply (f_equal fst) in H. rewrite fst_fsum in H. etransitivity; [|exact H].
    apply (fsum_ext rR). intros j _. unfold re_vec, re_mat. cbn. ring.
  - apply (fsum_zero rR rR_laws). intros j _. unfold re_vec, re_mat. cbn. ring.
Qed.
Lemma re_mat_ext M M' : (forall i j, M i j = M' i j) -> forall i j, re_mat M i j = re_mat M' i j.
Proof. intros E i j. unfold re_mat. rewrite E. reflexivity. Qed.

Section Main.
  Variables (n : nat) (shift : R) (ranks : list (list vec)) (t : nat).
  Variable dense : solver -> mat -> vec -> vec.
  Variable krylov : solver -> (vec -> vec) -> vec -> vec -> vec * Z.
  Hypothesis B : balanced t ranks.
  Hypothesis Hs : 0 < shift.
  Hypothesis Hd : forall k, exact_dense n (dense k).
  Hypothesis Hk : forall k, exact_krylov n (krylov k).
  Notation all := (concat ranks).

  Lemma sol_c f : exists x, solves n (reg shift all) f x.
  Proof. apply (solvable n shift); [exact Hs|apply reg_positive]. Qed.
  Lemma sol_r f : exists x, solves n (re_mat (reg shift all)) f x.
  Proof. apply (solvable n shift); [exact Hs|apply re_positive, reg_positive]. Qed.
  Lemma dense_ok k M f : (forall i j, M i j = reg shift all i j) -> solves n (reg shift all) f (dense k M f).
  Proof.
    intros E. apply (solves_ext n M _ f f _ E (fun _ => eq_refl)). apply Hd. destruct (sol_c f) as [x Hx]. exists x.
    exact (solves_ext n _ M f f x (fun i j => eq_sym (E i j)) (fun _ => eq_refl) Hx).
  Qed.
  Lemma dense_re_ok k M f : (forall i j, M i j = reg shift all i j) -> solves n (re_mat (reg shift all)) (re_vec f) (dense k (re_mat M) (re_vec f)).
  Proof.
    intros E. pose proof (re_mat_ext _ _ E) as E'. apply (solves_ext n (re_mat M) _ _ _ _ E' (fun _ => eq_refl)). apply Hd.
    destruct (sol_r (re_vec f)) as [x Hx]. exists x.
    exact (solves_ext n _ (re_mat M) _ _ x (fun i j => eq_sym (E' i j)) (fun _ => eq_refl) Hx).
  Qed.
  Lemma matvec_real v i : real_vec n v -> (i < n)%nat ->
    matvec n shift ranks true v i = fsum cC n (fun j => (re_mat (reg shift all) i j * v j)%C).
  Proof.
    intros Hv Hi. pose proof (matvec_is n shift t ranks v i B Hi) as E.
    change (matvec n shift ranks true v i) with (fst (matvec n shift ranks false v i), 0). rewrite E.
    apply injective_projections; cbn [fst snd]; [rewrite !fst_fsum|rewrite snd_fsum].
    - apply (fsum_ext rR). intros j Hj. unfold re_mat. cbn. rewrite (Hv j Hj). ring.
    - symmetry. apply (fsum_zero rR rR_laws). intros j Hj. unfold re_mat. cbn. rewrite (Hv j Hj). ring.
  Qed.

  Theorem update_natural c it k x0 f : (it = false -> c = false -> length ranks = 1%nat /\ k <> Cho) ->
    length (compute_update n shift ranks dense krylov (Some c) it false k x0 f) = length ranks /\
    Forall (fun r => exists x, r = Ok x /\ natural n c shift all f x) (compute_update n shift ranks dense krylov (Some c) it false k x0 f).
  Proof.
    intros H. unfold compute_update. split; [rewrite map_length; unfold centered; apply map_length|].
    apply Forall_forall. intros r Hr. apply in_map_iff in Hr. destruct Hr as (rows & <- & Hrows).
    destruct it.
    - set (st := match x0 with Some x => x | None => fun _ => r0 cC end). destruct c; cbn [negb].
      + destruct (Hk k) as [K _]. destruct (K (matvec n shift ranks false) (reg shift all) f st) as [Ki Kx].
        * intros v i Hi. apply (matvec_is n shift t); assumption.
        * apply sol_c.
        * destruct (krylov k (matvec n shift ranks false) f st) as [x info]. cbn [fst snd] in *.
          destruct (Z.ltb_spec info 0); [lia|]. exists x. split; [reflexivity|]. apply natural_c, Kx.
      + destruct (Hk k) as [_ K]. destruct (K (matvec n shift ranks true) (re_mat (reg shift all)) (re_vec f) st) as (Ki & Kr & Kx).
        * intros v i Hv Hi. apply matvec_real; assumption.
        * intros i _. reflexivity.
        * destruct (sol_r (re_vec f)) as [x Hx]. exists (re_vec x). apply re_solves, Hx.
        * destruct (krylov k (matvec n shift ranks true) (re_vec f) st) as [x info]. cbn [fst snd] in *.
          destruct (Z.ltb_spec info 0); [lia|]. exists (re_vec x). split; [reflexivity|]. apply natural_r, re_solves, Kx.
    - destruct c; cbn [precondition revert].
      + eexists. split; [reflexivity|]. apply natural_c.
        set (M := fun i j => radd cC (s_complex ranks i j) (if (i =? j)%nat then (shift, 0%R) else r0 cC)).
        assert (E : forall i j, M i j = reg shift all i j) by (intros i j; unfold M, reg; rewrite (s_complex_cov t ranks i j B); reflexivity).
        destruct k; exact (dense_ok _ M f E).
      + destruct (H eq_refl eq_refl) as [L1 Nc].
        eexists. split; [reflexivity|]. apply natural_r.
        set (M := fun i j => radd cC (s_real ranks rows i j) (if (i =? j)%nat then (shift, 0%R) else r0 cC)).
        assert (E : forall i j, M i j = reg shift all i j) by (intros i j; unfold M, reg; rewrite (s_real_one t ranks rows i j B L1 Hrows); reflexivity).
        destruct k; try (exfalso; apply Nc; reflexivity); exact (re_solves n _ f _ (dense_re_ok _ M f E)).
  Qed.
End Main.

Lemma natural_exists n c shift samples f : 0 < shift -> exists x, natural n c shift samples f x.
Proof.
  intros Hs. destruct c.
  - destruct (solvable n shift (reg shift samples) f Hs (reg_positive n shift samples)) as [x Hx]. exists x. apply natural_c, Hx.
  - destruct (solvable n shift (re_mat (reg shift samples)) (re_vec f) Hs (re_positive _ _ _ (reg_positive n shift samples))) as [x Hx].
    exists (re_vec x). apply natural_r, re_solves, Hx.
Qed.
Lemma natural_unique n c shift samples f x y : 0 < shift -> natural n c shift samples f x -> natural n c shift samples f y ->
  forall i, (i < n)%nat -> x i = y i.
Proof.
  intros Hs Hx Hy. destruct c.
  - apply natural_c in Hx, Hy. exact (positive_unique n shift _ f x y Hs (reg_positive n shift samples) Hx Hy).
  - apply natural_r in Hx, Hy. exact (positive_unique n shift _ (re_vec f) x y Hs (re_positive _ _ _ (reg_positive n shift samples)) (proj2 Hx) (proj2 Hy)).
Qed.
Lemma natural_descent n c shift samples f x : natural n c shift samples f x ->
  shift * fsum rR n (fun i => cnorm2 (x i)) <= fsum rR n (fun i => fst (x i) * fst (f i) + snd (x i) * snd (f i)).
Proof.
  assert (Q : forall M b, solves n M b x -> positive n shift M -> shift * norm2 n x <= fsum rR n (fun i => fst (x i) * fst (b i) + snd (x i) * snd (b i))).
  { intros M b H P. specialize (P x). unfold quad in P.
    rewrite (fsum_ext cC n _ (fun i => (conj (x i) * b i)%C)) in P by (intros i Hi; rewrite (H i Hi); reflexivity).
    rewrite fst_fsum in P. rewrite (fsum_ext rR n _ (fun i => fst (x i) * fst (b i) + snd (x i) * snd (b i))) in P by (intros i _; cbn; match goal with |- ?a = ?b => change (@eq R a b) end; ring). exact P. }
  intros H. destruct c.
  - apply natural_c in H. exact (Q _ _ H (reg_positive n shift samples)).
  - apply natural_r in H. destruct H as [Hr H]. pose proof (Q _ _ H (re_positive _ _ _ (reg_positive n shift samples))) as P.
    eapply Rle_trans; [exact P|]. right. apply (fsum_ext rR). intros i Hi. unfold re_vec. cbn [fst snd]. rewrite (Hr i Hi). cbn. rring.
Qed.

(** ** concrete cases *)
Definition cst (c : R) : vec := fun _ => (c, 0).
Lemma one_dim d M b m c : exact_dense 1 d -> M 0%nat 0%nat = (m, 0) -> m <> 0 -> b 0%nat = (c, 0) -> d M b 0%nat = (c / m, 0).
Proof.
  intros Hd Hm Nz Hb. assert (S1 : solves 1 M b (d M b)).
  { apply Hd. exists (fun _ => (c / m, 0)). intros i Hi. replace i with 0%nat by lia. cbn [fsum]. rewrite Hm, Hb. cpx; field; exact Nz. }
  specialize (S1 0%nat (Nat.lt_0_succ 0)). cbn [fsum] in S1. rewrite Hm, Hb in S1. destruct (d M b 0%nat) as [x y]. cbn in S1. injection S1 as E1 E2.
  f_equal; apply (Rmult_eq_reg_l m); try exact Nz; [field_simplify; [lra|exact Nz]|lra].
Qed.
Definition two_ranks : list (list vec) := [[cst 1; cst (-1)]; [cst 2; cst (-2)]].
Ltac num := unfold cov, cavg, average, s_real, s_complex, gram, n_samp, mean_all, cmean, rscal, cst; cbn; f_equal; field.
Lemma two_cov : cov (concat two_ranks) 0 0 = (5 / 2, 0).
Proof. num. Qed.
Lemma real_dense_ranks k dense krylov x0 : (forall k, exact_dense 1 (dense k)) ->
  exists x y, compute_update 1 1 two_ranks dense krylov (Some false) false false k x0 (cst 1) = [Ok x; Ok y] /\
    x 0%nat = (2 / 3, 0) /\ y 0%nat = (1 / 3, 0).
Proof.
  intros Hd. assert (Ec : exists a b, centered two_ranks = [a; b] /\ s_real two_ranks a 0%nat 0%nat = (1 / 2, 0) /\ s_real two_ranks b 0%nat 0%nat = (2, 0)).
  { eexists. eexists. split; [reflexivity|]. split; unfold two_ranks; num. }
  destruct Ec as (q1 & q2 & Ec & E1 & E2). unfold compute_update. rewrite Ec. cbn [map precondition revert]. eexists. eexists. split; [reflexivity|]. split.
  - unfold re_vec at 1. destruct k; cbn [precondition fst snd]; erewrite (one_dim _ _ _ (3 / 2) 1); try apply Hd; try reflexivity; try lra;
      try (cbn [fst]; f_equal; field); unfold re_mat; cbn [Nat.eqb]; rewrite E1; cbn; f_equal; field.
  - unfold re_vec at 1. destruct k; cbn [precondition fst snd]; erewrite (one_dim _ _ _ 3 1); try apply Hd; try reflexivity; try lra;
      try (cbn [fst]; f_equal; field); unfold re_mat; cbn [Nat.eqb]; rewrite E2; cbn; f_equal; field.
Qed.
Lemma real_dense_refuted : exists shift ranks f, balanced 2 ranks /\ 0 < shift /\
  forall k dense krylov x0, (forall k, exact_dense 1 (dense k)) ->
    exists x y, compute_update 1 shift ranks dense krylov (Some false) false false k x0 f = [Ok x; Ok y] /\ x 0%nat <> y 0%nat /\
      ~ natural 1 false shift (concat ranks) f x /\ ~ natural 1 false shift (concat ranks) f y.
Proof.
  exists 1, two_ranks, (cst 1). split; [repeat split; [lia|discriminate|repeat apply Forall_cons; try apply Forall_nil; reflexivity]|]. split; [lra|].
  intros k dense krylov x0 Hd. destruct (real_dense_ranks k dense krylov x0 Hd) as (x & y & E & Ex & Ey). exists x, y. split; [exact E|].
  rewrite Ex, Ey. split; [intros H; injection H; lra|].
  split; intros H; destruct (H 0%nat (Nat.lt_0_succ 0)) as [_ H1]; cbn [fsum] in H1; rewrite two_cov in H1; rewrite ?Ex, ?Ey in H1; cbn in H1; lra.
Qed.
(** Cholesky with real parameters and a complex matrix *)
Definition ci (s : R) : vec := fun i => match i with O => (s, 0) | _ => (0, s) end.
Lemma cholesky_refuted : exists shift ranks f, balanced 2 ranks /\ length ranks = 1%nat /\ 0 < shift /\
  forall dense krylov x0, (forall k, exact_dense 2 (dense k)) ->
    exists x, compute_update 2 shift ranks dense krylov (Some false) false false Cho x0 f = [Ok x] /\ ~ natural 2 false shift (concat ranks) f x.
Proof.
  exists 1, [[ci 1; ci (-1)]], (fun i => match i with O => (1, 0) | _ => (0, 0) end).
  split; [repeat split; [lia|discriminate|repeat apply Forall_cons; try apply Forall_nil; reflexivity]|]. split; [reflexivity|]. split; [lra|].
  intros dense krylov x0 Hd. set (rk := [[ci 1; ci (-1)]]).
  assert (C00 : cov (concat rk) 0 0 = (1, 0)) by (unfold rk, ci; num).
  assert (C01 : cov (concat rk) 0 1 = (0, 1)) by (unfold rk, ci; num).
  assert (C10 : cov (concat rk) 1 0 = (0, -1)) by (unfold rk, ci; num).
  assert (C11 : cov (concat rk) 1 1 = (1, 0)) by (unfold rk, ci; num).
  assert (Bk : balanced 2 rk) by (repeat split; [lia|discriminate|repeat apply Forall_cons; try apply Forall_nil; reflexivity]).
  unfold compute_update. assert (Ec : exists rows, centered rk = [rows]) by (eexists; reflexivity). destruct Ec as [rows Ec]. rewrite Ec. cbn [map precondition revert].
  eexists. split; [reflexivity|]. set (f := fun i : nat => match i with O => (1, 0) | _ => (0, 0) end : cpx).
  set (M := fun i j => radd cC (s_real rk rows i j) (if (i =? j)%nat then (1, 0%R) else r0 cC)).
  assert (E : forall i j, M i j = reg 1 (concat rk) i j).
  { intros i j. unfold M, reg. rewrite (s_real_one 2 rk rows i j Bk eq_refl); [reflexivity|]. rewrite Ec. left. reflexivity. }
  pose proof (dense_ok 2 1 rk dense Rlt_0_1 Hd Cho M f E) as H.
  pose proof (H 0%nat ltac:(lia)) as H0. pose proof (H 1%nat ltac:(lia)) as H1. clear H. cbn [fsum] in H0, H1.
  unfold reg in H0, H1. cbn [Nat.eqb] in H0, H1. rewrite C00, C01 in H0. rewrite C10, C11 in H1.
  intros N. destruct (N 0%nat ltac:(lia)) as [_ N0]. cbn [fsum] in N0. rewrite C00, C01 in N0. unfold re_vec in N0. cbn [fst] in N0.
  fold f in N0. fold M in N0. change (fun i : nat => match i with O => (1, 0) | _ => (0, 0) end) with f in N0.
  destruct (dense Cho M f 0%nat) as [a b], (dense Cho M f 1%nat) as [c d]. cbn in H0, H1, N0. injection H0 as A1 A2. injection H1 as A3 A4. lra.
Qed.
(** scale-invariant regularisation *)
Lemma scaled_refuted : exists shift ranks f, balanced 2 ranks /\ length ranks = 1%nat /\ 0 < shift /\
  forall k dense krylov x0, (forall k, exact_dense 1 (dense k)) ->
    exists x, compute_update 1 shift ranks dense krylov (Some true) false true k x0 f = [Ok x] /\ ~ natural_scaled 1 shift (concat ranks) f x.
Proof.
  exists (1 / 2), [[cst 2; cst (-2)]], (cst 1).
  split; [repeat split; [lia|discriminate|repeat apply Forall_cons; try apply Forall_nil; reflexivity]|]. split; [reflexivity|]. split; [lra|].
  intros k dense krylov x0 Hd. set (rk := [[cst 2; cst (-2)]]).
  assert (C00 : cov (concat rk) 0 0 = (4, 0)) by (unfold rk; num).
  assert (Bk : balanced 2 rk) by (repeat split; [lia|discriminate|repeat apply Forall_cons; try apply Forall_nil; reflexivity]).
  pose proof (s_complex_cov 2 rk 0 0 Bk) as S0. rewrite C00 in S0.
  assert (D : diag_of (s_complex rk) 0 = 2).
  { unfold diag_of. rewrite S0. cbn [fst]. replace 4 with (2 * 2) by ring. rewrite sqrt_square by lra.
    destruct (Rle_dec 2 cutoff) as [L|]; [|reflexivity]. unfold cutoff in L.
    assert (/ 10000000000 < 2) by lra. lra. }
  unfold compute_update. assert (Ec : exists rows, centered rk = [rows]) by (eexists; reflexivity). destruct Ec as [rows Ec]. rewrite Ec. cbn [map precondition revert].
  eexists. split; [reflexivity|]. intros N. specialize (N 0%nat ltac:(lia)). cbn [fsum] in N. rewrite C00, D in N.
  match type of N with context [rscal (/ 2) ?z] => assert (E : z = (2 / 3, 0)) end.
  { destruct k; rewrite (one_dim _ _ _ (3 / 4) (1 / 2)); try apply Hd; try lra; try (f_equal; field);
      cbn [fsum Nat.eqb]; rewrite ?D; unfold rscal, cst; cbn; f_equal; field. }
  rewrite E in N. unfold cst, rscal in N. cbn in N. injection N as N1 N2. lra.
Qed.
(** Exact solvers of one unknown *)
Definition solve1 (M : mat) (b : vec) : vec := fun _ => if Req_EM_T (cnorm2 (M 0%nat 0%nat)) 0 then r0 cC else (b 0%nat * cinv (M 0%nat 0%nat))%C.
Lemma cnorm2_0 (z : cpx) : cnorm2 z = 0 -> z = r0 cC.
Proof. destruct z as [a b]. unfold cnorm2. cbn. intros H. assert (a * a = 0) by nra. assert (b * b = 0) by nra. f_equal; nra. Qed.
Lemma solve1_unique M b x : solves 1 M b x -> cnorm2 (M 0%nat 0%nat) <> 0 -> solve1 M b 0%nat = x 0%nat.
Proof.
  intros H N. specialize (H 0%nat ltac:(lia)). cbn [fsum] in H. unfold solve1. destruct (Req_EM_T _ 0) as [E|_]; [contradiction|].
  pose proof (cinv_r _ N) as I. rewrite <- H. transitivity ((M 0%nat 0%nat * cinv (M 0%nat 0%nat)) * x 0%nat)%C; [ring|]. rewrite I. ring.
Qed.
Lemma solve1_exact : exact_dense 1 solve1.
Proof.
  intros M b [x Hx] i Hi. replace i with 0%nat by lia. cbn [fsum]. destruct (Req_EM_T (cnorm2 (M 0%nat 0%nat)) 0) as [E|N].
  - apply cnorm2_0 in E. specialize (Hx 0%nat ltac:(lia)). cbn [fsum] in Hx. rewrite E in *. rewrite <- Hx. ring.
  - rewrite (solve1_unique M b x Hx N). exact (Hx 0%nat ltac:(lia)).
Qed.
Definition krylov1 (A : vec -> vec) (b x0 : vec) : vec * Z := (solve1 (fun _ _ => A (fun _ => r1 cC) 0%nat) b, 0%Z).
Lemma krylov1_exact : exact_krylov 1 krylov1.
Proof.
  split.
  - intros A M b x0 HA HE. cbn [fst snd krylov1]. split; [lia|].
    assert (E : forall v, A v 0%nat = (M 0%nat 0%nat * v 0%nat)%C) by (intros v; rewrite HA by lia; cbn [fsum]; ring).
    assert (E1 : A (fun _ => r1 cC) 0%nat = M 0%nat 0%nat) by (rewrite E; ring).
    destruct HE as [x Hx].
    assert (S1 : solves 1 (fun _ _ => A (fun _ => r1 cC) 0%nat) b (fst (krylov1 A b x0))).
    { apply solve1_exact. exists x. intros i Hi. replace i with 0%nat by lia. specialize (Hx 0%nat ltac:(lia)). cbn [fsum] in *. rewrite E1. exact Hx. }
    intros i Hi. replace i with 0%nat by lia. specialize (S1 0%nat ltac:(lia)). cbn [fsum] in *. rewrite E1 in S1. exact S1.
  - intros A M b x0 HA Hb HE. cbn [fst snd krylov1]. split; [lia|].
    assert (E1 : A (fun _ => r1 cC) 0%nat = M 0%nat 0%nat) by (rewrite HA; [cbn [fsum]; ring|intros i _; reflexivity|lia]).
    destruct HE as (x & Hr & Hx).
    assert (X1 : solves 1 (fun _ _ => A (fun _ => r1 cC) 0%nat) b x).
    { intros i Hi. replace i with 0%nat by lia. specialize (Hx 0%nat ltac:(lia)). cbn [fsum] in *. rewrite E1. exact Hx. }
    assert (S1 : solves 1 (fun _ _ => A (fun _ => r1 cC) 0%nat) b (fst (krylov1 A b x0))) by (apply solve1_exact; exists x; exact X1).
    split.
    + intros i Hi. replace i with 0%nat by lia. destruct (Req_EM_T (cnorm2 (A (fun _ => r1 cC) 0%nat)) 0) as [E|N].
      * unfold krylov1, solve1. cbn [fst]. destruct (Req_EM_T _ 0); [reflexivity|contradiction].
      * unfold krylov1. cbn [fst]. rewrite (solve1_unique _ b x X1 N). apply Hr. lia.
    + intros i Hi. replace i with 0%nat by lia. specialize (S1 0%nat ltac:(lia)). cbn [fsum] in *. rewrite E1 in S1. exact S1.
Qed.

(** ** options *)
Lemma options_default : forall c,
  init_solver None true c None = Ok (true, if c then Gmres else Minres) /\
  (forall svd, init_solver None false c svd = Ok (false, Gelsy)).
Proof. intros [|]; split; reflexivity. Qed.
Lemma options_named it c :
  init_solver (Some "gmres"%string) it c None = Ok (true, Gmres) /\
  init_solver (Some "cg"%string) it c None = Ok (true, Cg) /\
  init_solver (Some "minres"%string) it c None = (if c then Err RuntimeError else Ok (true, Minres)) /\
  forall svd,
    init_solver (Some "ColPivHouseholder"%string) it c svd = Ok (false, Gelsy) /\
    init_solver (Some "QR"%string) it c svd = Ok (false, Gelsy) /\
    init_solver (Some "SVD"%string) it c svd = Ok (false, Lstsq) /\
    init_solver (Some "Cholesky"%string) it c svd = Ok (false, Cho).
Proof. destruct it, c; repeat split; reflexivity. Qed.
Lemma options_sound name it c svd b k : init_solver name it c svd = Ok (b, k) ->
  (b = true -> svd = None) /\ (k = Minres -> c = false) /\ (b = true <-> k = Gmres \/ k = Cg \/ k = Minres).
Proof.
  intros H. unfold init_solver in H.
  match type of H with context [if ?x then true else it] => set (u1 := x) in * end.
  match type of H with context [if ?x then false else _] => set (u2 := x) in * end.
  destruct (if u2 then false else if u1 then true else it) eqn:Eu.
  - assert (K : (b, k) = (true, k) /\ svd = None /\ (k = Gmres \/ k = Cg \/ (k = Minres /\ c = false))).
    { destruct svd as [r|]; [exfalso|].
      - revert H. repeat match goal with |- context [if ?x then _ else _] => destruct x end; discriminate.
      - revert H. repeat match goal with |- context [if ?x then _ else _] => destruct x eqn:? end; intros H; try discriminate H; injection H as <- <-; (split; [reflexivity|split; [reflexivity|auto 6]]). }
    destruct K as (Kb & Ks & Kk). injection Kb as ->. split; [intros _; exact Ks|]. split.
    + intros ->. destruct Kk as [E|[E|[_ E]]]; [discriminate|discriminate|exact E].
    + split; [intros _; tauto|reflexivity].
  - assert (K : b = false /\ (k = Gelsy \/ k = Lstsq \/ k = Cho)).
    { revert H. destruct svd; repeat match goal with |- context [if ?x then _ else _] => destruct x eqn:? end; intros H; try discriminate H; injection H as <- <-; auto. }
    destruct K as (-> & K). split; [discriminate|]. split; [intros ->; destruct K as [E|[E|E]]; discriminate|].
    split; [discriminate|]. intros K'. destruct K as [->|[->| ->]]; destruct K' as [E|[E|E]]; discriminate.
Qed.
Lemma options_unknown name it c svd : name <> "gmres"%string -> name <> "cg"%string -> name <> "minres"%string ->
  contains "ColPivHouseholder" name = false -> contains "QR" name = false -> contains "SVD" name = false -> contains "Cholesky" name = false ->
  init_solver (Some name) it c svd = Err RuntimeError.
Proof.
  intros N1 N2 N3 C1 C2 C3 C4. unfold init_solver.
  apply String.eqb_neq in N1, N2, N3. rewrite N1, N2, N3, C1, C2, C3, C4.
  assert (E : forall s, contains s name = false -> String.eqb name s = false).
  { intros s H. apply String.eqb_neq. intros ->. destruct s as [|a s]; [cbn in H; discriminate|].
    assert (P : forall t, String.prefix t t = true) by (induction t as [|x t IH]; cbn; [reflexivity|]; destruct (Ascii.ascii_dec x x); [exact IH|contradiction]).
    cbn [contains] in H. rewrite (P (String a s)) in H. discriminate. }
  rewrite (E _ C1), (E _ C2), (E _ C3), (E _ C4). destruct it; reflexivity.
Qed.
Lemma uninitialised n shift ranks dense krylov it si k x0 f :
  compute_update n shift ranks dense krylov None it si k x0 f = map (fun _ => Err ValueError) ranks.
Proof. reflexivity. Qed.
Lemma not_converged n shift ranks dense krylov c si k x0 f : (forall A b x, (snd (krylov k A b x) < 0)%Z) ->
  compute_update n shift ranks dense krylov (Some c) true si k x0 f = map (fun _ => Err RuntimeError) ranks.
Proof.
  intros H. unfold compute_update, centered. rewrite map_map. apply map_ext. intros r.
  destruct c; cbn [negb].
  - specialize (H (matvec n shift ranks false) f (match x0 with Some x => x | None => fun _ => r0 cC end)). destruct (krylov _ _ _ _) as [x i]. cbn [snd] in H.
    destruct (Z.ltb_spec i 0); [reflexivity|lia].
  - specialize (H (matvec n shift ranks true) (re_vec f) (match x0 with Some x => x | None => fun _ => r0 cC end)). destruct (krylov _ _ _ _) as [x i]. cbn [snd] in H.
    destruct (Z.ltb_spec i 0); [reflexivity|lia].
Qed.
