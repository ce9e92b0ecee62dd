From Coq Require Import List Arith ZArith Bool Reals Lra Lia Ring Permutation.
From Verif Require Import Base BaseFacts Rings Masked_Model Masked_Spec Masked_Proofs ARNN_Model ARNN_Proofs ToArray_Model Estim_Model Estim_Proofs
  Group_Model Group_Spec Group_Proofs Symm_Model Symm_Spec Symm_Proofs Ansatz_Model Ansatz_Spec Ansatz_Proofs Equiv_Model Equiv_Spec.
Import ListNotations.
Open Scope nat_scope.

(** ** roots of unity *)
Lemma root_add n a b : root n (a + b) = (root n a * root n b)%C.
Proof.
  unfold root. rewrite <- cexp_mul. f_equal. cpx; [lra|]. rewrite plus_INR. unfold Rdiv. ring.
Qed.
Lemma root_0 n : root n 0 = r1 cC.
Proof. unfold root. replace (2 * PI * INR 0 / INR n)%R with 0%R by (cbn; unfold Rdiv; ring). exact cexp_0. Qed.
Lemma root_period n k : 0 < n -> root n (n * k) = r1 cC.
Proof.
  intros Hn. unfold root, cexp. cbn [fst snd]. rewrite exp_0.
  replace (2 * PI * INR (n * k) / INR n)%R with (0 + 2 * INR k * PI)%R.
  - rewrite cos_period, sin_period, cos_0, sin_0. cbn. apply injective_projections; cbn; ring.
  - rewrite mult_INR. field. apply not_0_INR. lia.
Qed.
Lemma root_conj n m : (root n m * conj (root n m))%C = r1 cC.
Proof.
  unfold root. rewrite <- cexp_conj, <- cexp_mul. transitivity (cexp (r0 cC)); [|exact cexp_0]. f_equal. cpx; ring.
Qed.
Lemma conj_root n k a : 0 < n -> a <= n -> conj (root n (k * a)) = root n (k * (n - a)).
Proof.
  intros Hn Ha. transitivity (conj (root n (k * a)) * (root n (k * a) * root n (k * (n - a))))%C.
  - rewrite <- root_add. replace (k * a + k * (n - a)) with (n * k) by nia. rewrite root_period by exact Hn. rg.
  - transitivity ((root n (k * a) * conj (root n (k * a))) * root n (k * (n - a)))%C; [rg|]. rewrite root_conj. rg.
Qed.
Lemma root_mod n m : 0 < n -> root n m = root n (m mod n).
Proof.
  intros Hn. rewrite (Nat.div_mod m n) at 1 by lia. rewrite root_add, root_period by exact Hn. rg.
Qed.
Lemma root_not1 n m : 0 < m -> m < n -> root n m <> r1 cC.
Proof.
  intros H0 Hm E. unfold root, cexp in E. cbn [fst snd] in E. rewrite exp_0 in E.
  apply (f_equal fst) in E. cbn in E.
  set (x := (PI * INR m / INR n)%R) in *.
  replace (2 * PI * INR m / INR n)%R with (2 * x)%R in E by (unfold x; field; apply not_0_INR; lia).
  rewrite cos_2a_sin in E.
  assert (0 < x < PI)%R.
  { unfold x. pose proof PI_RGT_0. assert (0 < INR m)%R by (apply lt_0_INR; lia). assert (INR m < INR n)%R by (apply lt_INR; lia).
    assert (0 < INR n)%R by lra. split.
    - apply Rmult_lt_0_compat; [nra|apply Rinv_0_lt_compat; lra].
    - apply (Rmult_lt_reg_r (INR n)); [lra|]. unfold Rdiv. rewrite Rmult_assoc, Rinv_l by lra. nra. }
  assert (0 < sin x)%R by (apply sin_gt_0; lra). nra.
Qed.
Lemma geometric n m k : ((root n m - r1 cC) * fsum cC k (fun i => root n (i * m)))%C = (root n (k * m) - r1 cC)%C.
Proof.
  induction k as [|k IH]; cbn [fsum].
  - cbn [Nat.mul]. rewrite root_0. rg.
  - transitivity ((root n m - r1 cC) * fsum cC k (fun i => root n (i * m)) + (root n m - r1 cC) * root n (k * m))%C; [rg|].
    rewrite IH. replace (S k * m) with (m + k * m) by lia. rewrite root_add. rg.
Qed.
Lemma cmul_integral a b : (a * b)%C = r0 cC -> a <> r0 cC -> b = r0 cC.
Proof.
  intros E H. assert (N : (cnorm2 a * cnorm2 b = 0)%R).
  { unfold cnorm2. apply (f_equal cnorm2) in E. unfold cnorm2 in E. cbn in E. ring_simplify in E. ring_simplify. lra. }
  apply Rmult_integral in N. destruct N as [N|N]; [exfalso; apply H, cnorm2_zero, N|apply cnorm2_zero, N].
Qed.
Lemma orthogonal n M : 0 < n ->
  rscal (/ INR n) (fsum cC n (fun k => root n (k * M))) = if M mod n =? 0 then r1 cC else r0 cC.
Proof.
  intros Hn. destruct (Nat.eqb_spec (M mod n) 0) as [E|E].
  - replace (fsum cC n (fun k => root n (k * M))) with ((INR n, 0%R) : cpx).
    + unfold rscal. cbn [fst snd]. apply injective_projections; cbn; [|ring]. apply Rinv_l, not_0_INR. lia.
    + transitivity (fsum cC n (fun _ => r1 cC)).
      * clear. induction n as [|n IH]; [reflexivity|]. cbn [fsum]. rewrite <- IH. rewrite S_INR. apply injective_projections; cbn; ring.
      * apply (fsum_ext cC). intros k _. apply Nat.mod_divides in E; [|lia]. destruct E as [c ->].
        replace (k * (n * c)) with (n * (k * c)) by lia. symmetry. apply root_period, Hn.
  - replace (fsum cC n (fun k => root n (k * M))) with (r0 cC).
    + unfold rscal. apply injective_projections; cbn; ring.
    + symmetry. apply (cmul_integral (root n M - r1 cC)%C).
      * rewrite geometric, root_period by exact Hn. rg.
      * intros H. apply (root_not1 n (M mod n)); [lia|apply Nat.mod_upper_bound; lia|]. rewrite <- root_mod by exact Hn.
        transitivity (root n M - r1 cC + r1 cC)%C; [rg|]. rewrite H. rg.
Qed.

(** ** the convolution theorem *)
Lemma cells_pos shape : Forall (fun n => 0 < n) shape -> 0 < cells shape.
Proof. induction 1; cbn [cells fold_right]; [lia|]. fold (cells l). nia. Qed.
Lemma rscal_sum c m (f : nat -> cpx) : rscal c (fsum cC m f) = fsum cC m (fun a => rscal c (f a)).
Proof.
  rewrite rscal_emb, <- (fsum_scal cC cC_laws). apply (fsum_ext cC). intros i _. now rewrite rscal_emb.
Qed.
Lemma rscal_mul c (a b : cpx) : rscal c (a * b)%C = (a * rscal c b)%C.
Proof. rewrite !rscal_emb. rg. Qed.
Lemma ifftn_ext shape : Forall (fun n => 0 < n) shape -> forall f g c, (forall k, k < cells shape -> f k = g k) ->
  ifftn shape f c = ifftn shape g c.
Proof.
  induction 1 as [|n shape Hn F IH]; intros f g c E; cbn [ifftn].
  - apply E. cbn. lia.
  - f_equal. apply (fsum_ext cC). intros k Hk. f_equal. apply IH. intros j Hj. apply E. cbn [cells fold_right]. fold (cells shape). nia.
Qed.
Lemma ifftn_sum shape m (w : nat -> cpx) : forall (f : nat -> nat -> cpx) c,
  ifftn shape (fun k => fsum cC m (fun a => (w a * f a k)%C)) c = fsum cC m (fun a => (w a * ifftn shape (f a) c)%C).
Proof.
  induction shape as [|n shape IH]; intros f c; cbn [ifftn]; [reflexivity|].
  transitivity (rscal (/ INR n) (fsum cC n (fun k => fsum cC m (fun a =>
     (w a * (root n (k * (c / cells shape)) * ifftn shape (fun j => f a (k * cells shape + j)%nat) (c mod cells shape)))%C)))).
  - f_equal. apply (fsum_ext cC). intros k _. rewrite (IH (fun a j => f a (k * cells shape + j)%nat)).
    rewrite <- (fsum_scal cC cC_laws). apply (fsum_ext cC). intros a _. rg.
  - rewrite (fsum_swap cC cC_laws), rscal_sum. apply (fsum_ext cC). intros a _.
    rewrite (fsum_scal cC cC_laws). apply rscal_mul.
Qed.
Lemma split_lt c n p : c < n * p -> c / p < n /\ c mod p < p.
Proof. intros H. assert (p <> 0) by nia. split; [apply Nat.div_lt_upper_bound; nia|apply Nat.mod_upper_bound; lia]. Qed.
Lemma fsum_mod_delta n a c (f : nat -> cpx) : 0 < n -> a <= n ->
  fsum cC n (fun b => if (c + (n - a) + (n - b)) mod n =? 0 then f b else r0 cC) = f ((c + (n - a)) mod n).
Proof.
  intros Hn Ha. rewrite <- (fsum_delta cC cC_laws n f ((c + (n - a)) mod n)); [|apply Nat.mod_upper_bound; lia].
  apply (fsum_ext cC). intros b Hb. set (u := c + (n - a)).
  assert (E : (u + (n - b)) mod n = 0 <-> b = u mod n).
  { pose proof (Nat.mod_upper_bound u n ltac:(lia)) as Hu. rewrite (Nat.add_mod u (n - b) n) by lia.
    destruct (Nat.eq_dec b 0) as [->|Hb0].
    - rewrite Nat.sub_0_r, Nat.mod_same, Nat.add_0_r, Nat.mod_mod by lia. lia.
    - rewrite (Nat.mod_small (n - b)) by lia. set (v := u mod n) in *.
      destruct (le_lt_dec n (v + (n - b))) as [L|L].
      + assert (X : (v + (n - b)) mod n = v - b).
        { replace (v + (n - b)) with ((v - b) + 1 * n) by lia. rewrite Nat.mod_add by lia. apply Nat.mod_small. lia. }
        rewrite X. lia.
      + rewrite Nat.mod_small by lia. lia. }
  destruct (Nat.eqb_spec ((u + (n - b)) mod n) 0), (Nat.eqb_spec b (u mod n)); tauto.
Qed.
Lemma fsum_pair n p (f : nat -> cpx) : fsum cC (n * p) f = fsum cC n (fun a => fsum cC p (fun j => f (a * p + j))).
Proof.
  rewrite <- (fsum_flat cC cC_laws n p (fun a j => f (a * p + j))). apply (fsum_ext cC). intros i Hi. f_equal.
  assert (p <> 0) by nia. rewrite (Nat.div_mod i p) at 1 by assumption. lia.
Qed.
Lemma convolution_step n (c0 : nat) (D : nat -> nat -> cpx) : 0 < n -> c0 < n ->
  rscal (/ INR n) (fsum cC n (fun k => (root n (k * c0) *
    fsum cC n (fun a => (conj (root n (k * a)) * fsum cC n (fun b => (conj (root n (k * b)) * D a b)%C))%C))%C))
  = fsum cC n (fun a => D a ((c0 + (n - a)) mod n)).
Proof.
  intros Hn Hc.
  transitivity (fsum cC n (fun a => fsum cC n (fun b =>
    (D a b * rscal (/ INR n) (fsum cC n (fun k => root n (k * (c0 + (n - a) + (n - b))))))%C))).
  - transitivity (rscal (/ INR n) (fsum cC n (fun k => fsum cC n (fun a => fsum cC n (fun b =>
       (D a b * root n (k * (c0 + (n - a) + (n - b))))%C))))).
    + f_equal. apply (fsum_ext cC). intros k _. rewrite <- (fsum_scal cC cC_laws). apply (fsum_ext cC). intros a Ha.
      rewrite (conj_root n k a) by lia.
      transitivity (root n (k * c0) * root n (k * (n - a)) * fsum cC n (fun b => (conj (root n (k * b)) * D a b)%C))%C; [rg|].
      rewrite <- (fsum_scal cC cC_laws). apply (fsum_ext cC). intros b Hb. rewrite (conj_root n k b) by lia.
      rewrite !Nat.mul_add_distr_l, !root_add. rg.
    + rewrite (fsum_swap cC cC_laws), rscal_sum. apply (fsum_ext cC). intros a _.
      rewrite (fsum_swap cC cC_laws), rscal_sum. apply (fsum_ext cC). intros b _.
      rewrite (fsum_scal cC cC_laws). apply rscal_mul.
  - apply (fsum_ext cC). intros a Ha. rewrite <- (fsum_mod_delta n a c0 (D a)) by lia. apply (fsum_ext cC). intros b _.
    rewrite orthogonal by exact Hn. destruct (_ =? 0); rg.
Qed.
Lemma fftn_convolution shape : Forall (fun n => 0 < n) shape -> forall x y c, c < cells shape ->
  ifftn shape (fun k => (fftn shape x k * fftn shape y k)%C) c = circular shape x y c.
Proof.
  induction 1 as [|n shape Hn F IH]; intros x y c Hc.
  - cbn [ifftn fftn circular cells fold_right fsum csub]. unfold circular. cbn [cells fold_right fsum csub]. rg.
  - cbn [cells fold_right] in Hc. fold (cells shape) in Hc. destruct (split_lt _ _ _ Hc) as [H0 H1].
    pose proof (cells_pos shape F) as Hp. unfold circular.
    cbn [ifftn cells fold_right csub]. fold (cells shape). set (p := cells shape) in *.
    set (D := fun a b => circular shape (fun j => x (a * p + j)%nat) (fun j => y (b * p + j)%nat) (c mod p)).
    transitivity (rscal (/ INR n) (fsum cC n (fun k => (root n (k * (c / p)) *
      fsum cC n (fun a => (conj (root n (k * a)) * fsum cC n (fun b => (conj (root n (k * b)) * D a b)%C))%C))%C))).
    + f_equal. apply (fsum_ext cC). intros k Hk. f_equal.
      transitivity (ifftn shape (fun j => fsum cC n (fun a => (conj (root n (k * a)) * fsum cC n (fun b => (conj (root n (k * b)) *
         (fftn shape (fun i => x (a * p + i)%nat) j * fftn shape (fun i => y (b * p + i)%nat) j))%C))%C)) (c mod p)).
      * apply (ifftn_ext shape F). intros j Hj. cbn [fftn]. fold p.
        destruct (div_mod_at k p j Hj) as [-> ->].
        rewrite <- (fsum_scal_r cC cC_laws). apply (fsum_ext cC). intros a _.
        transitivity (conj (root n (k * a)) * (fftn shape (fun i => x (a * p + i)%nat) j *
           fsum cC n (fun b => (conj (root n (k * b)) * fftn shape (fun i => y (b * p + i)%nat) j)%C)))%C; [rg|].
        f_equal. rewrite <- (fsum_scal cC cC_laws). apply (fsum_ext cC). intros b _. rg.
      * rewrite (ifftn_sum shape n (fun a => conj (root n (k * a)))
          (fun a j => fsum cC n (fun b => (conj (root n (k * b)) * (fftn shape (fun i => x (a * p + i)%nat) j * fftn shape (fun i => y (b * p + i)%nat) j))%C))).
        apply (fsum_ext cC). intros a _. f_equal.
        rewrite (ifftn_sum shape n (fun b => conj (root n (k * b)))
          (fun b j => (fftn shape (fun i => x (a * p + i)%nat) j * fftn shape (fun i => y (b * p + i)%nat) j)%C)).
        apply (fsum_ext cC). intros b _. f_equal. apply IH, H1.
    + rewrite (convolution_step n (c / p) D Hn H0).
      rewrite fsum_pair. apply (fsum_ext cC). intros a Ha. unfold D, circular. apply (fsum_ext cC). intros j Hj.
      destruct (div_mod_at a p j Hj) as [-> ->]. reflexivity.
Qed.

(** ** differences of cells *)
Lemma subZ n u v : 0 < n -> v <= n -> Z.of_nat ((u + (n - v)) mod n) = ((Z.of_nat u - Z.of_nat v) mod Z.of_nat n)%Z.
Proof.
  intros Hn Hv. rewrite Nat2Z.inj_mod, Nat2Z.inj_add, Nat2Z.inj_sub by lia.
  replace (Z.of_nat u + (Z.of_nat n - Z.of_nat v))%Z with (Z.of_nat u - Z.of_nat v + 1 * Z.of_nat n)%Z by ring.
  apply Z_mod_plus_full.
Qed.
Lemma csub_lt shape : Forall (fun n => 0 < n) shape -> forall c c', csub shape c c' < cells shape.
Proof.
  induction 1 as [|n shape Hn F IH]; intros c c'; cbn [csub cells fold_right]; [lia|]. fold (cells shape).
  specialize (IH (c mod cells shape) (c' mod cells shape)).
  pose proof (Nat.mod_upper_bound (c / cells shape + (n - c' / cells shape)) n ltac:(lia)). nia.
Qed.
Lemma csub_parts n shape c c' : Forall (fun n => 0 < n) shape ->
  csub (n :: shape) c c' / cells shape = (c / cells shape + (n - c' / cells shape)) mod n /\
  csub (n :: shape) c c' mod cells shape = csub shape (c mod cells shape) (c' mod cells shape).
Proof. intros F. cbn [csub]. apply div_mod_at, csub_lt, F. Qed.
Lemma pair_ext p a b : a / p = b / p -> a mod p = b mod p -> p <> 0 -> a = b.
Proof. intros D M H. rewrite (Nat.div_mod a p), (Nat.div_mod b p) by assumption. congruence. Qed.

(** identities that hold in every component hold for cells *)
Ltac modz := apply Nat2Z.inj; rewrite ?subZ by (first [lia | apply Nat.lt_le_incl, Nat.mod_upper_bound; lia]).
Section Cells.
  Variable shape : list nat.
  Hypothesis F : Forall (fun n => 0 < n) shape.

  Lemma csub_0_r : forall u, u < cells shape -> csub shape u 0 = u.
  Proof.
    induction F as [|n sh Hn F' IH]; intros u Hu; [cbn in *; lia|].
    pose proof (cells_pos sh F'). cbn [cells fold_right] in Hu. fold (cells sh) in Hu. destruct (split_lt _ _ _ Hu).
    destruct (csub_parts n sh u 0 F') as [D M]. rewrite Nat.div_0_l, Nat.mod_0_l in * by lia.
    apply (pair_ext (cells sh)); [|rewrite M; auto|lia]. rewrite D, Nat.sub_0_r.
    replace (u / cells sh + n) with (u / cells sh + 1 * n) by lia. rewrite Nat.mod_add by lia. apply Nat.mod_small. assumption.
  Qed.
  Lemma csub_neg : forall c c', c < cells shape -> c' < cells shape -> csub shape 0 (csub shape c c') = csub shape c' c.
  Proof.
    induction F as [|n sh Hn F' IH]; intros c c' Hc Hc'; [reflexivity|].
    pose proof (cells_pos sh F'). cbn [cells fold_right] in Hc, Hc'. fold (cells sh) in Hc, Hc'.
    destruct (split_lt _ _ _ Hc), (split_lt _ _ _ Hc').
    destruct (csub_parts n sh 0 (csub (n :: sh) c c') F') as [D M], (csub_parts n sh c c' F') as [D1 M1], (csub_parts n sh c' c F') as [D2 M2].
    rewrite Nat.div_0_l, Nat.mod_0_l in * by lia.
    apply (pair_ext (cells sh)); [|rewrite M, M1, M2; auto|lia]. rewrite D, D1, D2. clear D D1 D2 M M1 M2.
    modz. rewrite Zminus_mod_idemp_r. f_equal. cbn. ring.
  Qed.
  Lemma csub_csub : forall u c c', u < cells shape -> c < cells shape -> c' < cells shape ->
    csub shape (csub shape u (csub shape 0 c')) c = csub shape u (csub shape c c').
  Proof.
    induction F as [|n sh Hn F' IH]; intros u c c' Hu Hc Hc'; [reflexivity|].
    pose proof (cells_pos sh F'). cbn [cells fold_right] in Hc, Hc', Hu. fold (cells sh) in Hc, Hc', Hu.
    destruct (split_lt _ _ _ Hc), (split_lt _ _ _ Hc'), (split_lt _ _ _ Hu).
    destruct (csub_parts n sh 0 c' F') as [D1 M1], (csub_parts n sh u (csub (n :: sh) 0 c') F') as [D2 M2],
      (csub_parts n sh (csub (n :: sh) u (csub (n :: sh) 0 c')) c F') as [D3 M3],
      (csub_parts n sh c c' F') as [D4 M4], (csub_parts n sh u (csub (n :: sh) c c') F') as [D5 M5].
    rewrite Nat.div_0_l, Nat.mod_0_l in * by lia.
    apply (pair_ext (cells sh)); [|rewrite M3, M2, M1, M5, M4; auto|lia]. rewrite D3, D2, D1, D5, D4. clear - Hn H0 H2 H4.
    modz. rewrite Zminus_mod_idemp_r, Zminus_mod_idemp_l, Zminus_mod_idemp_r. f_equal. cbn. ring.
  Qed.
  Lemma csub_cancel : forall u c, u < cells shape -> c < cells shape -> csub shape (csub shape u c) (csub shape 0 c) = u.
  Proof.
    induction F as [|n sh Hn F' IH]; intros u c Hu Hc; [cbn in *; lia|].
    pose proof (cells_pos sh F'). cbn [cells fold_right] in Hc, Hu. fold (cells sh) in Hc, Hu.
    destruct (split_lt _ _ _ Hc), (split_lt _ _ _ Hu).
    destruct (csub_parts n sh 0 c F') as [D1 M1], (csub_parts n sh u c F') as [D2 M2],
      (csub_parts n sh (csub (n :: sh) u c) (csub (n :: sh) 0 c) F') as [D3 M3].
    rewrite Nat.div_0_l, Nat.mod_0_l in * by lia.
    apply (pair_ext (cells sh)); [|rewrite M3, M2, M1; auto|lia]. rewrite D3, D2, D1. clear - Hn H0 H2.
    modz. rewrite Zminus_mod_idemp_r, Zminus_mod_idemp_l. replace (Z.of_nat (u / cells sh) - Z.of_nat (c / cells sh) - (Z.of_nat 0 - Z.of_nat (c / cells sh)))%Z with (Z.of_nat (u / cells sh)) by (cbn; ring).
    apply Z.mod_small. lia.
  Qed.
  Lemma csub_same : forall c, c < cells shape -> csub shape c c = 0.
  Proof.
    induction F as [|n sh Hn F' IH]; intros c Hc; [reflexivity|].
    pose proof (cells_pos sh F'). cbn [cells fold_right] in Hc. fold (cells sh) in Hc. destruct (split_lt _ _ _ Hc).
    cbn [csub]. rewrite IH by assumption. replace (c / cells sh + (n - c / cells sh)) with n by lia. rewrite Nat.mod_same by lia. lia.
  Qed.

  (** ** shifts *)
  Variable spc : nat.
  Hypothesis Hs : 0 < spc.
  Let N := cells shape * spc.
  Lemma shift_length c : length (shift shape spc c) = N.
  Proof. unfold shift. now rewrite map_length, seq_length. Qed.
  Lemma shift_nth c i : i < N -> nth i (shift shape spc c) 0 = csub shape (i / spc) c * spc + i mod spc.
  Proof. intros H. unfold shift. rewrite nth_map_seq' by exact H. reflexivity. Qed.
  Lemma shift_at c c' s : c' < cells shape -> s < spc -> nth (c' * spc + s) (shift shape spc c) 0 = csub shape c' c * spc + s.
  Proof. intros H1 H2. rewrite shift_nth by (unfold N; nia). destruct (div_mod_at c' spc s H2) as [-> ->]. reflexivity. Qed.
  Lemma shift_lt c i : i < N -> nth i (shift shape spc c) 0 < N.
  Proof.
    intros H. rewrite shift_nth by exact H. pose proof (csub_lt shape F (i / spc) c).
    pose proof (Nat.mod_upper_bound i spc ltac:(lia)). unfold N. nia.
  Qed.
  Lemma times_nth p q i : i < length p -> nth i (times p q) 0 = nth (nth i p 0) q 0.
  Proof.
    intros H. unfold times, permuted. rewrite (nth_indep _ 0 (nth 0 q 0)) by (now rewrite map_length).
    apply (map_nth (fun k => nth k q 0)).
  Qed.
  Lemma times_length p q : length (times p q) = length p.
  Proof. unfold times, permuted. apply map_length. Qed.
  Lemma shift_ext p c : length p = N ->
    (forall c' s, c' < cells shape -> s < spc -> nth (c' * spc + s) p 0 = csub shape c' c * spc + s) -> p = shift shape spc c.
  Proof.
    intros L H. apply nth_ext with 0 0; [now rewrite shift_length|]. rewrite L. intros i Hi.
    destruct (split_lt i (cells shape) spc Hi) as [A B]. rewrite (Nat.div_mod i spc) by lia. rewrite (Nat.mul_comm spc).
    rewrite H, shift_at by assumption. reflexivity.
  Qed.
  Lemma shift_0 : shift shape spc 0 = seq 0 N.
  Proof.
    symmetry. apply shift_ext; [apply seq_length|]. intros c s Hc H. rewrite csub_0_r by exact Hc. rewrite seq_nth; [reflexivity|].
    unfold N. nia.
  Qed.
  Lemma shift_times c c' : c < cells shape -> c' < cells shape ->
    times (shift shape spc (csub shape 0 c')) (shift shape spc c) = shift shape spc (csub shape c c').
  Proof.
    intros Hc Hc'. apply shift_ext; [rewrite times_length; apply shift_length|]. intros d s Hd H.
    assert (d * spc + s < N) by (unfold N; nia).
    rewrite times_nth by (rewrite shift_length; assumption). rewrite shift_at by assumption.
    rewrite shift_at by (auto using csub_lt). rewrite csub_csub by assumption. reflexivity.
  Qed.
  Lemma shift_inverses c : c < cells shape -> inverses N (shift shape spc c) (shift shape spc (csub shape 0 c)).
  Proof.
    intros Hc. split.
    - rewrite <- shift_0. apply shift_ext; [rewrite times_length; apply shift_length|]. intros d s Hd H.
      assert (d * spc + s < N) by (unfold N; nia).
      rewrite times_nth by (rewrite shift_length; assumption). rewrite !shift_at by (auto using csub_lt).
      rewrite csub_cancel, csub_0_r by assumption. reflexivity.
    - rewrite shift_times, csub_same by assumption. apply shift_0.
  Qed.
  Lemma shift_perm c : c < cells shape -> isperm N (shift shape spc c).
  Proof.
    intros Hc. unfold isperm. replace (shift shape spc c) with (map (fun i => nth i (shift shape spc c) 0) (seq 0 N)).
    - apply perm_seq; [intros i Hi; apply shift_lt, Hi|]. intros i j Hi Hj E.
      destruct (shift_inverses c Hc) as [I _].
      pose proof (f_equal (fun l => nth i l 0) I) as Ei. pose proof (f_equal (fun l => nth j l 0) I) as Ej. cbv beta in Ei, Ej.
      rewrite times_nth, seq_nth in Ei by (rewrite ?shift_length; assumption).
      rewrite times_nth, seq_nth in Ej by (rewrite ?shift_length; assumption). rewrite E in Ei. lia.
    - rewrite <- (shift_length c). symmetry. apply list_nth_seq.
  Qed.
End Cells.

(** ** the layers over the translation group *)
Lemma cast_real real z : real_if real z -> cast real z = z.
Proof. unfold cast, real_if. destruct real; intros H; [symmetry; apply isreal_eta, H; reflexivity|reflexivity]. Qed.
Lemma real_if_mul real a b : real_if real a -> real_if real b -> real_if real (a * b)%C.
Proof. intros Ha Hb E. apply isreal_mul; auto. Qed.
Lemma real_if_add real a b : real_if real a -> real_if real b -> real_if real (a + b)%C.
Proof. intros Ha Hb E. apply isreal_add; auto. Qed.
Lemma real_if_sum real n f : (forall i, i < n -> real_if real (f i)) -> real_if real (fsum cC n f).
Proof.
  intros H E. induction n as [|n IH]; [reflexivity|]. cbn [fsum]. apply isreal_add; [apply IH; auto|apply H; auto].
Qed.
Lemma real_if_bias real bias f z : real_bias real bias -> real_if real z -> real_if real (add_bias bias f z).
Proof. intros Hb Hz. unfold add_bias. destruct bias as [b|]; [|exact Hz]. apply real_if_add; [exact Hz|apply Hb]. Qed.
Lemma real_if_0 real : real_if real (r0 cC).
Proof. intros _. reflexivity. Qed.
Lemma real_if_nth real l i : Forall (real_if real) l -> real_if real (nth i l (r0 cC)).
Proof.
  intros H. destruct (le_lt_dec (length l) i) as [L|L]; [rewrite nth_overflow by exact L; apply real_if_0|].
  rewrite Forall_forall in H. apply H, nth_In, L.
Qed.
Lemma ifftn_sums shape m (f : nat -> nat -> cpx) c :
  ifftn shape (fun k => fsum cC m (fun a => f a k)) c = fsum cC m (fun a => ifftn shape (f a) c).
Proof.
  assert (E : forall g, fsum cC m g = fsum cC m (fun a => (r1 cC * g a)%C)).
  { intros g. apply (fsum_ext cC). intros. rg. }
  rewrite (E (fun a => ifftn shape (f a) c)), <- (ifftn_sum shape m (fun _ => r1 cC)).
  revert f c E. induction shape as [|n sh IH]; intros f c E; cbn [ifftn].
  - apply E.
  - f_equal. apply (fsum_ext cC). intros k _. f_equal. apply (IH (fun a j => f a (k * cells sh + j))). exact E.
Qed.

Section SymmFFT.
  Variables (shape : list nat) (spc p : nat) (sg : list (list nat)).
  Hypothesis F : Forall (fun n => 0 < n) shape.
  Hypothesis Hs : 0 < spc.
  Hypothesis Hp : 0 < p.
  Hypothesis Lsg : length sg = cells shape * p.
  Hypothesis Lrow : length (hd [] sg) = cells shape * spc.

  Lemma symm_fft_entry features kernel bias real x f b c : f < features -> b < p -> c < cells shape ->
    nth (c * p + b) (nth f (dense_symm_fft sg shape features kernel bias real x) []) (r0 cC)
    = cast real (add_bias bias f (fsum cC (cells shape) (fun c' => fsum cC spc (fun s =>
        (nth (c' * spc + s)%nat x (r0 cC) *
         nth (f * (cells shape * spc) + nth s (nth (csub shape c c' * p + b)%nat sg []) O)%nat kernel (r0 cC))%C)))).
  Proof.
    intros Hf Hb Hc. pose proof (cells_pos shape F) as HN. unfold dense_symm_fft.
    rewrite Lsg, Lrow. replace (cells shape * p / cells shape) with p by (rewrite Nat.mul_comm, Nat.div_mul; lia).
    replace (cells shape * spc / cells shape) with spc by (rewrite Nat.mul_comm, Nat.div_mul; lia).
    rewrite nth_map_seq' by exact Hf. rewrite nth_map_seq' by nia. rewrite !Nat.add_0_l.
    destruct (div_mod_at c p b Hb) as [-> ->]. f_equal. f_equal.
    rewrite (ifftn_sums shape spc (fun s k => (fftn shape (fun c => nth (c * spc + s)%nat x (r0 cC)) k *
      fftn shape (fun c => nth (f * (cells shape * spc) + nth s (nth (c * p + b) sg []) O)%nat kernel (r0 cC)) k)%C)).
    rewrite (fsum_swap cC cC_laws). apply (fsum_ext cC). intros s _.
    rewrite (fftn_convolution shape F) by exact Hc. reflexivity.
  Qed.
  Lemma symm_fft_shaped features kernel bias real x :
    shaped features (cells shape * p) (dense_symm_fft sg shape features kernel bias real x).
  Proof.
    pose proof (cells_pos shape F) as HN. unfold dense_symm_fft. rewrite Lsg.
    replace (cells shape * p / cells shape) with p by (rewrite Nat.mul_comm, Nat.div_mul; lia).
    split; [now rewrite map_length, seq_length|]. apply Forall_forall. intros r Hr. apply in_map_iff in Hr.
    destruct Hr as (f & <- & _). now rewrite map_length, seq_length.
  Qed.
End SymmFFT.

Lemma lattice_entry shape spc p rows c b c' s : lattice_group shape spc p rows ->
  c < cells shape -> b < p -> c' < cells shape -> s < spc ->
  nth (c' * spc + s) (nth (c * p + b) rows []) 0 = nth s (nth (csub shape c c' * p + b) rows []) 0.
Proof.
  intros (F & Hs & Hp & L & q & Q) Hc Hb Hc' H. destruct (Q b Hb) as [_ E].
  pose proof (cells_pos shape F) as HN. pose proof (csub_lt shape F c c') as Hd.
  rewrite !E by assumption. rewrite !times_nth by (rewrite shift_length; nia). f_equal.
  rewrite shift_at by assumption. change s with (0 * spc + s) at 2. rewrite shift_at by assumption.
  now rewrite csub_neg.
Qed.
Lemma Forall_nth_in {A} (P : A -> Prop) d l : (forall i, i < length l -> P (nth i l d)) -> Forall P l.
Proof. intros H. apply Forall_forall. intros x Hx. apply In_nth with (d := d) in Hx. destruct Hx as (i & Hi & <-). auto. Qed.
Lemma lattice_isperm shape spc p rows : lattice_group shape spc p rows -> Forall (isperm (cells shape * spc)) rows.
Proof.
  intros (F & Hs & Hp & L & q & Q). apply Forall_nth_in with (d := []). intros i Hi. rewrite L in Hi.
  destruct (split_lt i (cells shape) p Hi) as [A B]. destruct (Q (i mod p) B) as [P E]. specialize (E (i / p) A).
  rewrite (Nat.div_mod i p), (Nat.mul_comm p), E by lia. apply times_perm; [|exact P]. apply shift_perm; assumption.
Qed.

Lemma isperm_len n p : isperm n p -> length p = n.
Proof. intros H. rewrite (Permutation_length H). apply seq_length. Qed.
Lemma lattice_row shape spc p rows : lattice_group shape spc p rows -> length (hd [] rows) = cells shape * spc.
Proof.
  intros G. pose proof (lattice_isperm _ _ _ _ G) as P. destruct G as (F & Hs & Hp & L & _). pose proof (cells_pos shape F).
  destruct rows as [|r rows]; [cbn in L; nia|]. cbn [hd]. apply Forall_inv in P. now apply isperm_len.
Qed.
Lemma symm_fft_main shape spc p rows features k k' bias real x :
  lattice_group shape spc p rows ->
  length k = cells shape * spc * features -> transposed2 (cells shape * spc) features k k' ->
  Forall (real_if real) k' -> real_bias real bias -> Forall (real_if real) x ->
  dense_symm_fft rows shape features k' bias real x = dense_symm cC rows features k None bias x.
Proof.
  intros G Lk HT Rk Rb Rx. pose proof (lattice_isperm _ _ _ _ G) as P. pose proof (lattice_row _ _ _ _ G) as R.
  pose proof G as (F & Hs & Hp & L & _). pose proof (cells_pos shape F) as HN.
  apply (shaped_ext (r0 cC) features (length rows)).
  - rewrite L. apply (symm_fft_shaped shape spc p rows F Hs Hp L R).
  - apply symm_shaped.
  - intros f g Hf Hg. rewrite L in Hg. destruct (split_lt _ _ _ Hg) as [Hc Hb].
    rewrite (symm_entry cC (cells shape * spc)) by (try assumption; lia).
    rewrite (Nat.div_mod g p) by lia. rewrite (Nat.mul_comm p).
    set (c := g / p) in *. set (b := g mod p) in *.
    rewrite (symm_fft_entry shape spc p rows F Hs Hp L R) by assumption.
    rewrite cast_real.
    + change (biased cC bias f) with (add_bias bias f). f_equal. rewrite fsum_pair. apply (fsum_ext cC). intros c' Hc'.
      apply (fsum_ext cC). intros s H. f_equal. unfold weight. rewrite HT; [|..|exact Hf].
      * rewrite (lattice_entry shape spc p rows c b c' s G) by assumption. reflexivity.
      * rewrite Forall_forall in P. assert (I : In (nth (c * p + b) rows []) rows) by (apply nth_In; rewrite L; nia).
        specialize (P _ I). assert (J : In (nth (c' * spc + s) (nth (c * p + b) rows []) 0) (seq 0 (cells shape * spc))).
        { apply (Permutation_in _ P). apply nth_In. rewrite (isperm_len _ _ P). nia. }
        apply in_seq in J. lia.
    + apply real_if_bias; [exact Rb|]. apply real_if_sum. intros c' _. apply real_if_sum. intros s _.
      apply real_if_mul; apply real_if_nth; assumption.
Qed.

(** equivariant layers *)
Section EquivFFT.
  Variables (shape : list nat) (p : nat) (pt : list (list nat)).
  Hypothesis F : Forall (fun n => 0 < n) shape.
  Hypothesis Hp : 0 < p.
  Hypothesis Lpt : length pt = cells shape * p.

  Lemma equiv_fft_entry cin cout kernel bias real x o b c : o < cout -> b < p -> c < cells shape ->
    nth (c * p + b) (nth o (dense_equivariant_fft pt shape cin cout kernel bias real x) []) (r0 cC)
    = cast real (add_bias bias o (fsum cC cin (fun i => fsum cC p (fun a => fsum cC (cells shape) (fun c' =>
        (nth (c' * p + a)%nat (nth i x []) (r0 cC) *
         nth ((o * cin + i) * (p * cells shape) + nth (csub shape c c' * p + b) (nth a pt []) O)%nat kernel (r0 cC))%C))))).
  Proof.
    intros Ho Hb Hc. pose proof (cells_pos shape F) as HN. unfold dense_equivariant_fft.
    rewrite Lpt. replace (cells shape * p / cells shape) with p by (rewrite Nat.mul_comm, Nat.div_mul; lia).
    rewrite nth_map_seq' by exact Ho. rewrite nth_map_seq' by nia. rewrite !Nat.add_0_l.
    destruct (div_mod_at c p b Hb) as [-> ->]. f_equal. f_equal.
    rewrite (ifftn_sums shape cin (fun i k => fsum cC p (fun a => (fftn shape (fun c => nth (c * p + a)%nat (nth i x []) (r0 cC)) k *
      fftn shape (fun c => nth ((o * cin + i) * (p * cells shape) + nth (c * p + b) (nth a pt []) O)%nat kernel (r0 cC)) k)%C))).
    apply (fsum_ext cC). intros i _.
    rewrite (ifftn_sums shape p (fun a k => (fftn shape (fun c => nth (c * p + a)%nat (nth i x []) (r0 cC)) k *
      fftn shape (fun c => nth ((o * cin + i) * (p * cells shape) + nth (c * p + b) (nth a pt []) O)%nat kernel (r0 cC)) k)%C)).
    apply (fsum_ext cC). intros a _. rewrite (fftn_convolution shape F) by exact Hc. reflexivity.
  Qed.
  Lemma equiv_fft_shaped cin cout kernel bias real x :
    shaped cout (cells shape * p) (dense_equivariant_fft pt shape cin cout kernel bias real x).
  Proof.
    pose proof (cells_pos shape F) as HN. unfold dense_equivariant_fft. rewrite Lpt.
    replace (cells shape * p / cells shape) with p by (rewrite Nat.mul_comm, Nat.div_mul; lia). rewrite (Nat.mul_comm p).
    split; [now rewrite map_length, seq_length|]. apply Forall_forall. intros r Hr. apply in_map_iff in Hr.
    destruct Hr as (f & <- & _). now rewrite map_length, seq_length.
  Qed.
End EquivFFT.

(** h^-1 g depends on the difference of the translations only *)
Lemma lattice_quotients shape spc p rows n q : lattice_group shape spc p rows -> n = cells shape * spc -> NoDup rows ->
  quotients n rows q -> forall c c' a b, c < cells shape -> c' < cells shape -> a < p -> b < p ->
  q (c' * p + a) (c * p + b) = q a (csub shape c c' * p + b).
Proof.
  intros G -> ND Q c c' a b Hc Hc' Ha Hb. pose proof (lattice_isperm _ _ _ _ G) as P. rewrite Forall_forall in P.
  destruct G as (F & Hs & Hp & L & r & E). pose proof (cells_pos shape F) as HN. pose proof (csub_lt shape F c c') as Hd.
  set (n := cells shape * spc) in *.
  destruct (E a Ha) as [Pa Ea], (E b Hb) as [Pb Eb].
  assert (I : forall d e, d < cells shape -> e < p -> d * p + e < length rows) by (intros; rewrite L; nia).
  pose proof (argsort_inverses n (r a) Pa) as [I1 I2]. pose proof (argsort_perm n (r a) Pa) as Pa'.
  pose proof (shift_perm shape F spc Hs) as SP. pose proof (csub_lt shape F 0 c') as Hn'.
  destruct (shift_inverses shape F spc Hs c' Hc') as [J1 J2]. fold n in J1, J2, SP.
  assert (Inv1 : inverses n (nth (c' * p + a) rows []) (times (argsort (r a)) (shift shape spc (csub shape 0 c')))).
  { rewrite Ea by assumption. split.
    - rewrite (times_assoc n), <- (times_assoc n (r a)), I1, (times_id_l n) by auto using times_perm. exact J1.
    - rewrite (times_assoc n), <- (times_assoc n (shift shape spc (csub shape 0 c'))), J2, (times_id_l n) by auto using times_perm. exact I2. }
  assert (Inv2 : inverses n (nth a rows []) (argsort (r a))).
  { change a with (0 * p + a) at 1. rewrite Ea by assumption. rewrite shift_0 by assumption. fold n. rewrite (times_id_l n) by assumption.
    split; assumption. }
  destruct (Q (c' * p + a) (c * p + b) _ (I _ _ Hc' Ha) (I _ _ Hc Hb) Inv1) as [B1 E1].
  assert (Ha0 : a < length rows) by (apply (I 0 a); assumption).
  destruct (Q a (csub shape c c' * p + b) _ Ha0 (I _ _ Hd Hb) Inv2) as [B2 E2].
  apply (proj1 (NoDup_nth rows []) ND); [assumption..|]. rewrite E1, E2, !Eb by assumption.
  rewrite (times_assoc n) by auto using times_perm. f_equal.
  rewrite <- (times_assoc n) by auto using times_perm. f_equal. apply shift_times; assumption.
Qed.

Section Group.
  Variables (g : pgroup) (pt : list (list nat)).
  Hypothesis W : Forall (wf (degree g)) (elems g).
  Hypothesis ND : NoDup (perms g).
  Hypothesis PT : product_table g = Ok pt.

  Lemma matrix_entry cin cout kernel bias x q o k :
    quotients (degree g) (perms g) q ->
    length kernel = cout * cin * length pt -> shaped cin (length pt) x -> o < cout -> k < length pt ->
    nth k (nth o (reshape cout (length pt) (dense_equivariant cC pt cin cout kernel None bias x)) []) (r0 cC)
    = add_bias bias o (fsum cC cin (fun i => fsum cC (length pt) (fun h =>
        (nth h (nth i x []) (r0 cC) * nth ((o * cin + i) * length pt + q h k)%nat kernel (r0 cC))%C))).
  Proof.
    intros Hq Lk Sx Ho Hk. rewrite reshape_at; [|apply equiv_length|assumption..].
    rewrite (equiv_formula cC cC_laws g pt W ND PT cin cout kernel None bias x q) by assumption. reflexivity.
  Qed.

  Lemma equiv_fft_main shape spc p cin cout kernel bias real x :
    lattice_group shape spc p (perms g) -> degree g = cells shape * spc ->
    length kernel = cout * cin * length pt -> shaped cin (length pt) x ->
    Forall (real_if real) kernel -> real_bias real bias -> Forall (Forall (real_if real)) x ->
    dense_equivariant_fft pt shape cin cout kernel bias real x
    = reshape cout (length pt) (dense_equivariant cC pt cin cout kernel None bias x).
  Proof.
    intros G Hd Lk Sx Rk Rb Rx. destruct (table_facts g pt W PT) as (LP & WP & _ & _ & Q).
    pose proof G as (F & Hs & Hp & L & _). pose proof (cells_pos shape F) as HN.
    assert (Lpt : length pt = cells shape * p) by congruence.
    apply (shaped_ext (r0 cC) cout (length pt)).
    - rewrite Lpt at 1. apply (equiv_fft_shaped shape p pt F Hp Lpt).
    - apply reshape_shaped, equiv_length.
    - intros o k Ho Hk. rewrite (matrix_entry cin cout kernel bias x _ o k Q) by assumption.
      rewrite Lpt in Hk. destruct (split_lt _ _ _ Hk) as [Hc Hb]. rewrite (Nat.div_mod k p) by lia. rewrite (Nat.mul_comm p).
      set (c := k / p) in *. set (b := k mod p) in *.
      rewrite (equiv_fft_entry shape p pt F Hp Lpt) by assumption. rewrite cast_real.
      + f_equal. apply (fsum_ext cC). intros i _. rewrite (fsum_swap cC cC_laws). rewrite Lpt at 1. rewrite fsum_pair.
        apply (fsum_ext cC). intros c' Hc'. apply (fsum_ext cC). intros a Ha. f_equal. f_equal.
        rewrite Lpt, (Nat.mul_comm p). f_equal.
        symmetry. apply (lattice_quotients shape spc p (perms g) (degree g) (fun h k => nth k (nth h pt []) 0) G Hd ND Q c c' a b); assumption.
      + apply real_if_bias; [exact Rb|]. apply real_if_sum. intros i _. apply real_if_sum. intros a _. apply real_if_sum. intros c' _.
        apply real_if_mul; apply real_if_nth; [|assumption].
        destruct (le_lt_dec (length x) i) as [A|A]; [rewrite nth_overflow by exact A; constructor|].
        rewrite Forall_forall in Rx. apply Rx, nth_In, A.
  Qed.
End Group.

(** ** the layer over the irreducible representations *)
Section Products.
  Variables (cin : nat) (a b : nat -> list cpx).
  Definition block (off d : nat) : list cpx :=
    flat_map (fun i => map (fun j => fsum cC cin (fun f => fsum cC d (fun k =>
      (nth (off + i * d + k)%nat (a f) (r0 cC) * nth (off + k * d + j)%nat (b f) (r0 cC))%C))) (seq 0 d)) (seq 0 d).
  Fixpoint singles (off : nat) (ds : list nat) : list cpx :=
    match ds with [] => [] | d :: ds => block off d ++ singles (off + d * d) ds end.

  Lemma flat_map_ext' {A B} (f h : A -> list B) l : (forall x, f x = h x) -> flat_map f l = flat_map h l.
  Proof. intros E. induction l; cbn [flat_map]; [reflexivity|]. now rewrite E, IHl. Qed.
  Lemma flat_map_shift {B} (f : nat -> list B) m : forall s, flat_map f (seq (S s) m) = flat_map (fun r => f (S r)) (seq s m).
  Proof. induction m as [|m IH]; intros s; cbn [seq flat_map]; [reflexivity|]. now rewrite IH. Qed.
  Lemma run_blocks d m : forall off,
    flat_map (fun r => block (off + r * (d * d)) d) (seq 0 m) = singles off (repeat d m).
  Proof.
    induction m as [|m IH]; intros off; [reflexivity|]. cbn [repeat singles seq flat_map].
    replace (off + 0 * (d * d)) with off by lia. f_equal. rewrite flat_map_shift, <- IH. apply flat_map_ext'. intros r.
    f_equal. lia.
  Qed.
  Lemma singles_app l : forall off l', singles off (l ++ l') = singles off l ++ singles (off + fold_right (fun d s => d * d + s) 0 l) l'.
  Proof.
    induction l as [|d l IH]; intros off l'; cbn [app singles fold_right]; [now rewrite Nat.add_0_r|].
    rewrite IH, app_assoc. do 2 f_equal. lia.
  Qed.
  Lemma sizes_repeat d m : fold_right (fun d s => d * d + s) 0 (repeat d m) = m * (d * d).
  Proof. induction m as [|m IH]; cbn [repeat fold_right]; [reflexivity|]. rewrite IH. lia. Qed.
  Lemma products_cons off m d shapes :
    products cin a b off ((m, d) :: shapes) = singles off (repeat d m) ++ products cin a b (off + m * (d * d)) shapes.
  Proof. rewrite <- run_blocks. reflexivity. Qed.
  Lemma products_runs ds : forall size same off,
    products cin a b off (runs size same ds) = singles off (repeat size same ++ ds).
  Proof.
    induction ds as [|d ds IH]; intros size same off; cbn [runs].
    - rewrite products_cons. cbn [products]. now rewrite !app_nil_r.
    - destruct (Nat.eqb_spec size d) as [->|_].
      + rewrite IH. f_equal. clear. induction same as [|m IHm]; [reflexivity|]. cbn [repeat app] in *. f_equal. exact IHm.
      + rewrite products_cons, IH, (singles_app (repeat size same) off (d :: ds)), sizes_repeat. reflexivity.
  Qed.
End Products.

Lemma flat_rows_length {A} (F : nat -> nat -> A) m d :
  length (flat_map (fun i => map (fun j => F i j) (seq 0 d)) (seq 0 m)) = m * d.
Proof.
  rewrite <- (seq_length m 0) at 2. induction (seq 0 m) as [|i l IH]; [reflexivity|]. cbn [flat_map length].
  rewrite app_length, map_length, seq_length, IH. lia.
Qed.
Lemma flat_rows_nth {A} (dflt : A) (F : nat -> nat -> A) m d i j : i < m -> j < d ->
  nth (i * d + j) (flat_map (fun i => map (fun j => F i j) (seq 0 d)) (seq 0 m)) dflt = F i j.
Proof.
  intros Hi Hj. rewrite flat_map_concat_map. rewrite (nth_concat dflt d) by
    (try lia; apply Forall_forall; intros r Hr; apply in_map_iff in Hr; destruct Hr as (k & <- & _); now rewrite map_length, seq_length).
  destruct (div_mod_at i d j Hj) as [-> ->]. rewrite nth_map_seq' by exact Hi. rewrite nth_map_seq' by exact Hj. reflexivity.
Qed.
Lemma ir_row_length g r : length (ir_row g r) = ir_dim r * ir_dim r.
Proof. apply flat_rows_length. Qed.
Lemma forward_length l g g' : length (forward l g) = length (forward l g').
Proof.
  unfold forward. induction l as [|r l IH]; cbn [flat_map]; [reflexivity|]. rewrite !app_length, !ir_row_length, IH. reflexivity.
Qed.
Lemma forward_app l l' g : forward (l ++ l') g = forward l g ++ forward l' g.
Proof. unfold forward. apply flat_map_app. Qed.
Lemma forward_nth pre r post g i j : i < ir_dim r -> j < ir_dim r ->
  nth (length (forward pre 0) + i * ir_dim r + j) (forward (pre ++ r :: post) g) (r0 cC) = ir_mat r g i j.
Proof.
  intros Hi Hj. rewrite forward_app. change (forward (r :: post) g) with (ir_row g r ++ forward post g).
  rewrite (forward_length pre 0 g). rewrite app_nth2 by lia.
  replace (length (forward pre g) + i * ir_dim r + j - length (forward pre g)) with (i * ir_dim r + j) by lia.
  rewrite app_nth1 by (rewrite ir_row_length; nia). apply flat_rows_nth; assumption.
Qed.

Definition hat (n : nat) (r : irrep) (x : nat -> cpx) (i j : nat) : cpx :=
  fsum cC n (fun g => (x g * ir_mat r g i j)%C).
Lemma forward_ft_nth n pre r post x i j : i < ir_dim r -> j < ir_dim r ->
  nth (length (forward pre 0) + i * ir_dim r + j) (forward_ft n (pre ++ r :: post) x) (r0 cC) = hat n r x i j.
Proof.
  intros Hi Hj. unfold forward_ft. rewrite nth_map_seq'.
  - rewrite Nat.add_0_l. apply (fsum_ext cC). intros g _. now rewrite forward_nth.
  - rewrite forward_app, app_length. change (forward (r :: post) 0) with (ir_row 0 r ++ forward post 0). rewrite app_length, ir_row_length. nia.
Qed.
Definition zmat (n cin : nat) (X K : nat -> nat -> cpx) (r : irrep) (i j : nat) : cpx :=
  fsum cC cin (fun f => fsum cC (ir_dim r) (fun k => (hat n r (X f) i k * hat n r (K f) k j)%C)).
Definition zrow n cin X K r := flat_map (fun i => map (fun j => zmat n cin X K r i j) (seq 0 (ir_dim r))) (seq 0 (ir_dim r)).
Lemma flat_map_ext_seq {B} (f h : nat -> list B) m : (forall i, i < m -> f i = h i) -> flat_map f (seq 0 m) = flat_map h (seq 0 m).
Proof. intros E. rewrite !flat_map_concat_map. f_equal. apply map_ext_in. intros i Hi. apply in_seq in Hi. apply E. lia. Qed.
Lemma singles_rows n cin X K post : forall pre,
  singles cin (fun f => forward_ft n (pre ++ post) (X f)) (fun f => forward_ft n (pre ++ post) (K f))
    (length (forward pre 0)) (map ir_dim post) = flat_map (zrow n cin X K) post.
Proof.
  induction post as [|r post IH]; intros pre; [reflexivity|]. cbn [map singles flat_map]. f_equal.
  - unfold block, zrow. apply flat_map_ext_seq. intros i Hi. apply map_ext_in. intros j Hj. apply in_seq in Hj.
    unfold zmat. apply (fsum_ext cC). intros f _. apply (fsum_ext cC). intros k Hk.
    rewrite !forward_ft_nth by lia. reflexivity.
  - specialize (IH (pre ++ [r])). rewrite <- app_assoc in IH. cbn [app] in IH. rewrite <- IH. f_equal.
    rewrite forward_app, app_length. change (forward [r] 0) with (ir_row 0 r ++ []). rewrite app_nil_r, ir_row_length. reflexivity.
Qed.
Lemma combine_flat_map {A B D} (f : A -> list B) (h : A -> list D) l : (forall x, length (f x) = length (h x)) ->
  combine (flat_map f l) (flat_map h l) = flat_map (fun x => combine (f x) (h x)) l.
Proof.
  intros E. induction l as [|x l IH]; cbn [flat_map]; [reflexivity|]. rewrite <- IH.
  specialize (E x). revert E. generalize (f x) (h x). intros u. induction u as [|y u IHu]; intros [|v w] E; try discriminate; [reflexivity|].
  cbn [app combine]. f_equal. apply IHu. cbn in E. lia.
Qed.
Lemma lsum_flat_map {A} (f : A -> list cpx) l : lsum cC (flat_map f l) = lsum cC (map (fun x => lsum cC (f x)) l).
Proof. induction l as [|x l IH]; cbn [flat_map map lsum]; [reflexivity|]. rewrite (lsum_app cC cC_laws), IH. reflexivity. Qed.
Lemma map_flat_map {A B D} (F : B -> D) (f : A -> list B) l : map F (flat_map f l) = flat_map (fun x => map F (f x)) l.
Proof. induction l as [|x l IH]; cbn [flat_map]; [reflexivity|]. rewrite map_app, IH. reflexivity. Qed.
Lemma combine_map_map {A B D} (f : A -> B) (h : A -> D) l : combine (map f l) (map h l) = map (fun x => (f x, h x)) l.
Proof. induction l; cbn [map combine]; congruence. Qed.
Lemma inverse_ft_rows n cin X K irreps g :
  inverse_ft n irreps (flat_map (zrow n cin X K) irreps) g
  = lsum cC (map (fun r => rscal (INR (ir_dim r) / INR n) (fsum cC (ir_dim r) (fun i => fsum cC (ir_dim r) (fun j =>
      (zmat n cin X K r i j * conj (ir_mat r g i j))%C)))) irreps).
Proof.
  unfold inverse_ft, inverse. rewrite combine_flat_map.
  2:{ intros r. rewrite map_length, ir_row_length. apply flat_rows_length. }
  rewrite map_flat_map, lsum_flat_map. f_equal. apply map_ext. intros r.
  unfold zrow, ir_row. rewrite map_flat_map, combine_flat_map by (intros; now rewrite !map_length).
  rewrite map_flat_map, lsum_flat_map, <- (fsum_lsum cC cC_laws), rscal_sum. apply (fsum_ext cC). intros i _.
  rewrite map_map, combine_map_map, map_map, <- (fsum_lsum cC cC_laws), rscal_sum. apply (fsum_ext cC). intros j _.
  cbn [fst snd]. rewrite !rscal_emb. rg.
Qed.

Lemma quotients_inj n rows q h k k' : permutation_group n rows -> quotients n rows q ->
  h < length rows -> k < length rows -> k' < length rows -> q h k = q h k' -> k = k'.
Proof.
  intros (P & G & ND) Q Hh Hk Hk' E. rewrite Forall_forall in P.
  pose proof (P _ (nth_In rows [] Hh)) as Ph. pose proof (argsort_inverses n _ Ph) as J.
  destruct (Q h k _ Hh Hk J) as [_ E1]. destruct (Q h k' _ Hh Hk' J) as [_ E2]. rewrite E, E2 in E1.
  apply (times_cancel n) in E1; auto using argsort_perm, nth_In.
  apply (proj1 (NoDup_nth rows []) ND); auto.
Qed.
Lemma zmat_conv n cin X K r q rows m : permutation_group m rows -> n = length rows -> quotients m rows q ->
  representation n q r -> forall i j, i < ir_dim r -> j < ir_dim r ->
  zmat n cin X K r i j = fsum cC n (fun g => (fsum cC cin (fun f => fsum cC n (fun h => (X f h * K f (q h g))%C)) * ir_mat r g i j)%C).
Proof.
  intros PG -> Q R i j Hi Hj. unfold zmat. set (n := length rows) in *. set (d := ir_dim r) in *.
  transitivity (fsum cC cin (fun f => fsum cC n (fun h => fsum cC n (fun g => (X f h * K f (q h g) * ir_mat r g i j)%C)))).
  - apply (fsum_ext cC). intros f _. unfold hat.
    transitivity (fsum cC d (fun k => fsum cC n (fun h => (X f h * ir_mat r h i k * fsum cC n (fun t => (K f t * ir_mat r t k j)%C))%C))).
    { apply (fsum_ext cC). intros k _. rewrite <- (fsum_scal_r cC cC_laws). reflexivity. }
    rewrite (fsum_swap cC cC_laws). apply (fsum_ext cC). intros h Hh.
    transitivity (fsum cC d (fun k => fsum cC n (fun g => (X f h * K f (q h g) * (ir_mat r h i k * ir_mat r (q h g) k j))%C))).
    { apply (fsum_ext cC). intros k _.
      rewrite <- (fsum_perm cC cC_laws n (q h) (fun t => (K f t * ir_mat r t k j)%C)).
      - rewrite <- (fsum_scal cC cC_laws). apply (fsum_ext cC). intros g _. rg.
      - intros g Hg. destruct PG as (P & _). rewrite Forall_forall in P.
        apply (Q h g _ Hh Hg (argsort_inverses m _ (P _ (nth_In rows [] Hh)))).
      - intros g g' Hg Hg' E. exact (quotients_inj m rows q h g g' PG Q Hh Hg Hg' E). }
    rewrite (fsum_swap cC cC_laws). apply (fsum_ext cC). intros g Hg. rewrite (fsum_scal cC cC_laws). f_equal. apply R; assumption.
  - transitivity (fsum cC cin (fun f => fsum cC n (fun g => fsum cC n (fun h => (X f h * K f (q h g) * ir_mat r g i j)%C)))).
    { apply (fsum_ext cC). intros f _. apply (fsum_swap cC cC_laws). }
    rewrite (fsum_swap cC cC_laws). apply (fsum_ext cC). intros g _. rewrite <- (fsum_scal_r cC cC_laws).
    apply (fsum_ext cC). intros f _. rewrite <- (fsum_scal_r cC cC_laws). reflexivity.
Qed.
Lemma irrep_convolution n cin X K irreps q rows m g : permutation_group m rows -> n = length rows -> quotients m rows q ->
  Forall (representation n q) irreps -> complete n irreps -> g < n ->
  inverse_ft n irreps (flat_map (zrow n cin X K) irreps) g
  = fsum cC cin (fun f => fsum cC n (fun h => (X f h * K f (q h g))%C)).
Proof.
  intros PG Hn Q R Cm Hg. rewrite inverse_ft_rows.
  set (V := fun g => fsum cC cin (fun f => fsum cC n (fun h => (X f h * K f (q h g))%C))). match goal with |- ?a = _ => change (a = V g) end.
  transitivity (fsum cC n (fun g' => (V g' * lsum cC (map (fun r => rscal (INR (ir_dim r) / INR n)
      (fsum cC (ir_dim r) (fun i => fsum cC (ir_dim r) (fun j => (ir_mat r g' i j * conj (ir_mat r g i j))%C)))) irreps))%C)).
  - clear Cm. induction R as [|r l Hr R IH]; cbn [map lsum].
    + symmetry. apply (fsum_zero cC cC_laws). intros. rg.
    + rewrite IH. clear IH.
      transitivity (fsum cC n (fun g' => (V g' * rscal (INR (ir_dim r) / INR n) (fsum cC (ir_dim r) (fun i => fsum cC (ir_dim r) (fun j => (ir_mat r g' i j * conj (ir_mat r g i j))%C))))%C) +
        fsum cC n (fun g' => (V g' * lsum cC (map (fun r => rscal (INR (ir_dim r) / INR n)
      (fsum cC (ir_dim r) (fun i => fsum cC (ir_dim r) (fun j => (ir_mat r g' i j * conj (ir_mat r g i j))%C)))) l))%C))%C.
      2:{ rewrite <- (fsum_add cC cC_laws). apply (fsum_ext cC). intros. rg. }
      f_equal.
      transitivity (rscal (INR (ir_dim r) / INR n) (fsum cC n (fun g' => (V g' * fsum cC (ir_dim r) (fun i => fsum cC (ir_dim r) (fun j => (ir_mat r g' i j * conj (ir_mat r g i j))%C)))%C))).
      2:{ rewrite rscal_sum. apply (fsum_ext cC). intros g' _. apply rscal_mul. }
      f_equal.
      transitivity (fsum cC (ir_dim r) (fun i => fsum cC n (fun g' => fsum cC (ir_dim r) (fun j => (V g' * (ir_mat r g' i j * conj (ir_mat r g i j)))%C)))).
      2:{ rewrite (fsum_swap cC cC_laws). apply (fsum_ext cC). intros g' _. rewrite <- (fsum_scal cC cC_laws).
          apply (fsum_ext cC). intros i _. rewrite <- (fsum_scal cC cC_laws). reflexivity. }
      apply (fsum_ext cC). intros i Hi. rewrite (fsum_swap cC cC_laws n). apply (fsum_ext cC). intros j Hj.
      rewrite (zmat_conv n cin X K r q rows m PG Hn Q Hr i j Hi Hj). rewrite <- (fsum_scal_r cC cC_laws).
      apply (fsum_ext cC). intros g' _. unfold V. rg.
  - rewrite <- (fsum_delta cC cC_laws n V g Hg). apply (fsum_ext cC). intros g' Hg'. rewrite (Cm g' g Hg' Hg).
    destruct (g' =? g); rg.
Qed.
Section Group2.
  Variables (g : pgroup) (pt : list (list nat)).
  Hypothesis W : Forall (wf (degree g)) (elems g).
  Hypothesis ND : NoDup (perms g).
  Hypothesis PT : product_table g = Ok pt.

  Lemma irrep_main irreps cin cout k k' bias real x :
    Forall (representation (length pt) (fun h k => nth k (nth h pt []) 0)) irreps -> complete (length pt) irreps ->
    length k = cout * cin * length pt -> transposed3 (length pt) cin cout k k' -> shaped cin (length pt) x ->
    Forall (real_if real) k' -> real_bias real bias -> Forall (Forall (real_if real)) x ->
    dense_equivariant_irrep (length pt) irreps cin cout k' bias real x
    = reshape cout (length pt) (dense_equivariant cC pt cin cout k None bias x).
  Proof.
    intros R Cm Lk HT Sx Rk Rb Rx. destruct (table_facts g pt W PT) as (LP & WP & G & P & Q).
    apply (shaped_ext (r0 cC) cout (length pt)).
    - unfold dense_equivariant_irrep. split; [now rewrite map_length, seq_length|]. apply Forall_forall. intros r Hr.
      apply in_map_iff in Hr. destruct Hr as (o & <- & _). now rewrite map_length, seq_length.
    - apply reshape_shaped, equiv_length.
    - intros o s Ho Hk. rewrite (matrix_entry g pt W ND PT cin cout k bias x _ o s Q) by assumption.
      unfold dense_equivariant_irrep. rewrite nth_map_seq' by exact Ho. rewrite nth_map_seq' by exact Hk. rewrite !Nat.add_0_l.
      rewrite products_runs. cbn [repeat app].
      set (X := fun i h => nth h (nth i x []) (r0 cC)).
      set (K := fun i t => nth ((i * cout + o) * length pt + t) k' (r0 cC)).
      pose proof (singles_rows (length pt) cin X K irreps []) as E. cbn [app] in E.
      change (length (forward [] 0)) with 0 in E.
      match goal with |- context [singles ?c ?a ?b ?o ?l] => replace (singles c a b o l) with (flat_map (zrow (length pt) cin X K) irreps) by (symmetry; exact E) end.
      clear E.
      rewrite (irrep_convolution (length pt) cin X K irreps (fun h k => nth k (nth h pt []) 0) (perms g) (degree g) s);
        [|split; [|split]; assumption|exact LP|exact Q|exact R|exact Cm|exact Hk].
      rewrite cast_real.
      + f_equal. apply (fsum_ext cC). intros i Hi. apply (fsum_ext cC). intros h Hh. f_equal. unfold K. symmetry.
        apply HT; [exact Ho|exact Hi|]. rewrite LP in *. rewrite Forall_forall in P.
        apply (Q h s _ Hh Hk (argsort_inverses _ _ (P _ (nth_In _ [] Hh)))).
      + apply real_if_bias; [exact Rb|]. apply real_if_sum. intros i _. apply real_if_sum. intros h _.
        apply real_if_mul; apply real_if_nth; [|assumption].
        destruct (le_lt_dec (length x) i) as [A|A]; [rewrite nth_overflow by exact A; constructor|].
        rewrite Forall_forall in Rx. apply Rx, nth_In, A.
  Qed.
End Group2.

(** ** networks *)
Definition swap3 (n cin cout : nat) (k' : list cpx) : list cpx :=
  map (fun q => nth ((q / n mod cin * cout + q / n / cin) * n + q mod n) k' (r0 cC)) (seq 0 (cout * cin * n)).
Lemma swap3_ok n cin cout k' : transposed3 n cin cout (swap3 n cin cout k') k'.
Proof.
  intros o i t Ho Hi Ht. unfold swap3. change (0%R, 0%R) with (r0 cC).
  assert (H1 : o * cin + i < cout * cin) by nia.
  rewrite nth_map_seq' by nia. rewrite Nat.add_0_l. destruct (div_mod_at (o * cin + i) n t Ht) as [-> ->].
  destruct (div_mod_at o cin i Hi) as [-> ->]. reflexivity.
Qed.
Definition swap2 (n features : nat) (k' : list cpx) : list cpx :=
  map (fun q => nth (q mod features * n + q / features) k' (r0 cC)) (seq 0 (n * features)).
Lemma swap2_ok n features k' : transposed2 n features (swap2 n features k') k'.
Proof.
  intros i f Hi Hf. unfold swap2. change (0%R, 0%R) with (r0 cC). rewrite nth_map_seq' by nia. rewrite Nat.add_0_l.
  destruct (div_mod_at i features f Hf) as [-> ->]. reflexivity.
Qed.
Lemma swap_length {A} (f : nat -> A) n : length (map f (seq 0 n)) = n.
Proof. now rewrite map_length, seq_length. Qed.

Lemma real_rows_map real (act : cpx -> cpx) x : (forall z, real_if real z -> real_if real (act z)) ->
  Forall (Forall (real_if real)) x -> Forall (Forall (real_if real)) (map (map act) x).
Proof.
  intros H. induction 1 as [|r x Hr Hx IH]; cbn [map]; constructor; [|exact IH].
  induction Hr; cbn [map]; constructor; auto.
Qed.
Lemma shaped_map {A} (act : A -> A) n m x : shaped n m x -> shaped n m (map (map act) x).
Proof.
  intros [L F]. split; [now rewrite map_length|]. apply Forall_forall. intros r Hr. apply in_map_iff in Hr.
  destruct Hr as (s & <- & Hs). rewrite map_length. rewrite Forall_forall in F. auto.
Qed.
Lemma real_entries real (x : list (list cpx)) n m : shaped n m x ->
  (forall i j, i < n -> j < m -> real_if real (nth j (nth i x []) (r0 cC))) -> Forall (Forall (real_if real)) x.
Proof.
  intros [L F] H. apply Forall_nth_in with (d := []). intros i Hi. rewrite L in Hi.
  apply Forall_nth_in with (d := r0 cC). intros j Hj. apply H; [exact Hi|].
  rewrite Forall_forall in F. rewrite <- (F (nth i x [])); [exact Hj|]. apply nth_In. lia.
Qed.

Section Network.
  Variables (g : pgroup) (pt : list (list nat)).
  Hypothesis W : Forall (wf (degree g)) (elems g).
  Hypothesis ND : NoDup (perms g).
  Hypothesis PT : product_table g = Ok pt.
  Variable real : bool.
  Variable layer : glayer -> list (list cpx) -> list (list cpx).
  Variable conv : glayer -> list cpx.
  Hypothesis Hconv : forall l, length (conv l) = g_out l * g_in l * length pt.
  Hypothesis Hreal : forall l, Forall (real_if real) (g_kernel l) -> Forall (real_if real) (conv l).
  Hypothesis Hlayer : forall l x, length (g_kernel l) = g_out l * g_in l * length pt -> shaped (g_in l) (length pt) x ->
    Forall (real_if real) (g_kernel l) -> real_bias real (g_bias l) -> Forall (Forall (real_if real)) x ->
    layer l x = reshape (g_out l) (length pt) (dense_equivariant cC pt (g_in l) (g_out l) (conv l) None (g_bias l) x).
  Variable act : cpx -> cpx.
  Hypothesis Hact : forall z, real_if real z -> real_if real (act z).
  Definition to_eq (l : glayer) : eq_layer cC := @EqLayer cC (g_in l) (g_out l) (conv l) None (g_bias l).

  Lemma equiv_real l x : shaped (g_in l) (length pt) x -> Forall (real_if real) (g_kernel l) -> real_bias real (g_bias l) ->
    Forall (Forall (real_if real)) x ->
    Forall (Forall (real_if real)) (reshape (g_out l) (length pt) (dense_equivariant cC pt (g_in l) (g_out l) (conv l) None (g_bias l) x)).
  Proof.
    intros Sa Rk Rb Ra.
    assert (Sr : shaped (g_out l) (length pt) (reshape (g_out l) (length pt) (dense_equivariant cC pt (g_in l) (g_out l) (conv l) None (g_bias l) x)))
      by apply reshape_shaped, equiv_length.
    apply (real_entries real _ _ _ Sr). intros o k Ho Hk. destruct (table_facts g pt W PT) as (_ & _ & _ & _ & Q).
    rewrite (matrix_entry g pt W ND PT (g_in l) (g_out l) (conv l) (g_bias l) _ _ o k Q (Hconv l) Sa Ho Hk).
    apply real_if_bias; [exact Rb|]. apply real_if_sum. intros i _. apply real_if_sum. intros h _.
    apply real_if_mul; apply real_if_nth; [|apply Hreal, Rk].
    destruct (le_lt_dec (length x) i) as [A|A]; [rewrite nth_overflow by exact A; constructor|].
    rewrite Forall_forall in Ra. apply Ra, nth_In, A.
  Qed.
  Lemma hidden_stack ls : forall c x, layers_fit real (length pt) ls c -> shaped c (length pt) x ->
    Forall (Forall (real_if real)) x -> hidden_layers layer act ls x = stack cC act pt (map to_eq ls) x.
  Proof.
    induction ls as [|l ls IH]; intros c x H Sx Rx; [reflexivity|]. cbn [layers_fit] in H.
    destruct H as (E & Lk & Rk & Rb & H). cbn [hidden_layers fold_left map stack to_eq e_in e_out e_kernel e_mask e_bias].
    change (fold_left _ ls ?y) with (hidden_layers layer act ls y).
    change (fold_left _ (map to_eq ls) ?y) with (stack cC act pt (map to_eq ls) y).
    assert (Sa : shaped (g_in l) (length pt) (map (map act) x)) by (rewrite E; apply shaped_map, Sx).
    assert (Ra : Forall (Forall (real_if real)) (map (map act) x)) by (apply real_rows_map; assumption).
    rewrite (Hlayer l _ Lk Sa Rk Rb Ra).
    assert (Sr : shaped (g_out l) (length pt) (reshape (g_out l) (length pt) (dense_equivariant cC pt (g_in l) (g_out l) (conv l) None (g_bias l) (map (map act) x)))).
    { apply reshape_shaped, equiv_length. }
    apply (IH (g_out l)); [exact H|exact Sr|]. eapply equiv_real; eauto.
  Qed.
  Lemma fits_to_eq ls : forall c, layers_fit real (length pt) ls c -> fits_stack (length pt) (map to_eq ls) c.
  Proof.
    induction ls as [|l ls IH]; intros c H; [exact I|]. cbn [layers_fit] in H. destruct H as (E & _ & _ & _ & H).
    cbn [map fits_stack to_eq e_in e_out e_kernel]. split; [exact E|]. split; [apply Hconv|]. apply IH, H.
  Qed.
  Lemma hidden_real ls : forall c x, layers_fit real (length pt) ls c -> shaped c (length pt) x ->
    Forall (Forall (real_if real)) x -> Forall (Forall (real_if real)) (hidden_layers layer act ls x).
  Proof.
    induction ls as [|l ls IH]; intros c x H Sx Rx; [exact Rx|]. cbn [layers_fit] in H.
    destruct H as (E & Lk & Rk & Rb & H). cbn [hidden_layers fold_left].
    change (fold_left _ ls ?y) with (hidden_layers layer act ls y).
    assert (Sa : shaped (g_in l) (length pt) (map (map act) x)) by (rewrite E; apply shaped_map, Sx).
    assert (Ra : Forall (Forall (real_if real)) (map (map act) x)) by (apply real_rows_map; assumption).
    rewrite (Hlayer l _ Lk Sa Rk Rb Ra).
    assert (Sr : shaped (g_out l) (length pt) (reshape (g_out l) (length pt) (dense_equivariant cC pt (g_in l) (g_out l) (conv l) None (g_bias l) (map (map act) x)))).
    { apply reshape_shaped, equiv_length. }
    apply (IH (g_out l)); [exact H|exact Sr|]. eapply equiv_real; eauto.
  Qed.
  (** the output before the readout moves with the symmetry *)
  Lemma network_moved features kernel bias ls x s k' L :
    permutation_group (degree g) (perms g) -> length x = degree g -> length kernel = degree g * features ->
    layers_fit real (length pt) ls features ->
    In s (perms g) -> In k' (perms g) -> inverses (degree g) s k' -> translation (perms g) k' L ->
    Forall (real_if real) x -> Forall (real_if real) kernel -> real_bias real bias ->
    let out x := hidden_layers layer act ls (dense_symm cC (perms g) features kernel None bias x) in
    out (permuted (r0 cC) s x) = moved (r0 cC) L (out x) /\ Forall (fun r => length r = length pt) (out x) /\
    Forall (Forall (real_if real)) (out x).
  Proof.
    intros PG Lx Lk Hf Hs Hk' J HL Rx Rk Rb out. destruct (table_facts g pt W PT) as (LP & _ & G & P & Q).
    assert (S1 : forall x, shaped features (length pt) (dense_symm cC (perms g) features kernel None bias x))
      by (intros; rewrite LP; apply symm_shaped).
    assert (R1 : forall x, Forall (real_if real) x -> Forall (Forall (real_if real)) (dense_symm cC (perms g) features kernel None bias x)).
    { intros y Ry. apply (real_entries real _ _ _ (S1 y)). intros f t Hf' Ht. rewrite LP in Ht.
      rewrite (symm_entry cC (degree g)) by assumption. change (biased cC bias f) with (add_bias bias f).
      apply real_if_bias; [exact Rb|]. apply real_if_sum. intros i _. apply real_if_mul; [apply real_if_nth, Ry|].
      unfold weight. apply real_if_nth, Rk. }
    assert (Rp : Forall (real_if real) (permuted (r0 cC) s x)).
    { unfold permuted. apply Forall_forall. intros z Hz. apply in_map_iff in Hz. destruct Hz as (i & <- & _). apply real_if_nth, Rx. }
    rewrite <- and_assoc. split; [|unfold out; apply (hidden_real ls features); auto].
    unfold out. rewrite !(hidden_stack ls features) by auto.
    rewrite (symm_equivariant cC cC_laws (degree g) (perms g) features kernel None bias x s k' L) by assumption.
    apply (stack_translation cC cC_laws g pt W ND PT act (map to_eq ls) features _ k' L); auto using fits_to_eq.
  Qed.
End Network.

(** the readout *)
Lemma weighted_moved n rows s k' L chi x j :
  permutation_group n rows -> j < length rows -> s = nth j rows [] -> In k' rows -> inverses n s k' -> translation rows k' L ->
  multiplicative rows chi -> Forall (fun r => length r = length rows) x ->
  weighted_sum chi (moved (r0 cC) L x) = (chi j * weighted_sum chi x)%C.
Proof.
  intros PG Hj Es Hk' J HL M. unfold weighted_sum, moved. rewrite map_map.
  induction 1 as [|r x Hr Hx IH]; cbn [map lsum]; [rg|]. rewrite IH.
  transitivity (chi j * fsum cC (length r) (fun g => (chi g * cexp (nth g r (r0 cC)))%C) +
    chi j * lsum cC (map (fun row => fsum cC (length row) (fun g => (chi g * cexp (nth g row (r0 cC)))%C)) x))%C; [|rg].
  f_equal. rewrite map_length, seq_length, Hr.
  rewrite <- (fsum_perm cC cC_laws (length rows) L (fun g => (chi g * cexp (nth g r (r0 cC)))%C)).
  - rewrite <- (fsum_scal cC cC_laws). apply (fsum_ext cC). intros h Hh. rewrite nth_map_seq' by exact Hh. rewrite Nat.add_0_l.
    rewrite (M j (L h) h Hj (proj1 (HL h Hh)) Hh); [rg|]. rewrite (proj2 (HL h Hh)), <- Es.
    pose proof PG as (P & _ & _). rewrite Forall_forall in P.
    assert (isperm n s) by (subst s; apply P, nth_In, Hj).
    rewrite <- (times_assoc n) by (auto using nth_In). destruct J as [-> _]. rewrite (times_id_l n); [reflexivity|]. apply P, nth_In, Hh.
  - intros h Hh. apply HL, Hh.
  - intros h h' Hh Hh' E. eapply translation_inj; eauto.
Qed.
Lemma sqrt_norm_pos w : w <> r0 cC -> (0 < sqrt (cnorm2 w))%R.
Proof.
  intros H. apply sqrt_lt_R0. pose proof (cnorm2_nonneg w). destruct (Rle_lt_or_eq_dec _ _ H0) as [|E]; [assumption|].
  exfalso. apply H, cnorm2_zero. auto.
Qed.
(** the output for a sum *)
Definition value (o : output) : option cpx := match o with NaN => None | Log l => Some (amplitude l) end.
Lemma phase_only w z0 : cnorm2 w <> 0%R ->
  rscal (sqrt (cnorm2 w)) (amplitude (Some (0%R, match clog w with Some z => snd z | None => z0 end))) = w.
Proof.
  intros Z. pose proof (clog_exp w) as E. unfold clog in *. destruct (Req_EM_T (cnorm2 w) 0) as [Z'|_]; [contradiction|].
  set (m := sqrt (cnorm2 w)) in *. set (t := if Rle_dec 0 (snd w) then _ else _) in *.
  cbn [amplitude snd] in *. refine (eq_trans _ E). unfold cexp, rscal. cbn [fst snd].
  assert (0 < m)%R. { unfold m. apply sqrt_lt_R0. pose proof (cnorm2_nonneg w). lra. }
  rewrite exp_0, exp_ln by assumption. f_equal; ring.
Qed.
Lemma finish_complex z0 w : finish false false z0 w = Log (clog w).
Proof. reflexivity. Qed.
Lemma finish_transform real_out eq_amp z0 z1 chi w l l' :
  (real_out = true -> isreal chi /\ isreal w) ->
  (eq_amp = true -> real_out = false /\ cnorm2 chi = 1%R /\ w <> r0 cC) ->
  finish real_out eq_amp z0 w = Log l -> finish real_out eq_amp z1 (chi * w)%C = Log l' ->
  amplitude l' = (chi * amplitude l)%C.
Proof.
  intros HR HE. unfold finish. destruct eq_amp.
  - destruct (HE eq_refl) as (-> & Hc & Hw). intros [= <-] [= <-].
    assert (Z : cnorm2 w <> 0%R) by (intros Z; apply Hw, cnorm2_zero, Z).
    assert (En : cnorm2 (chi * w)%C = cnorm2 w).
    { transitivity (cnorm2 chi * cnorm2 w)%R; [|rewrite Hc; ring]. unfold cnorm2. cbn. ring. }
    pose proof (phase_only w z0 Z) as P1. pose proof (phase_only (chi * w)%C z1) as P2. rewrite En in P2. specialize (P2 Z).
    set (m := sqrt (cnorm2 w)) in *. assert (m <> 0%R).
    { unfold m. intros E. apply sqrt_eq_0 in E; [contradiction|apply cnorm2_nonneg]. }
    set (v := amplitude (Some (0%R, match clog w with Some z => snd z | None => z0 end))) in *.
    set (u := amplitude (Some (0%R, match clog (chi * w)%C with Some z => snd z | None => z1 end))) in *.
    assert (E : rscal m u = rscal m (chi * v)%C).
    { rewrite rscal_mul, P1. exact P2. }
    change (u = (chi * v)%C). clearbody u v m. clear P1 P2. apply (f_equal (rscal (/ m))) in E. rewrite !rscal_emb in E.
    assert (I : (emb (/ m) * emb m)%C = r1 cC) by (unfold emb; cpx; [field; assumption|ring]).
    transitivity (emb (/ m) * emb m * u)%C; [rewrite I; rg|]. transitivity (emb (/ m) * (emb m * u))%C; [rg|]. rewrite E.
    transitivity (emb (/ m) * emb m * (chi * v))%C; [rg|]. rewrite I. rg.
  - destruct real_out.
    + destruct (HR eq_refl) as [Hc Hw]. assert (Hcw : isreal (chi * w)%C) by (apply isreal_mul; assumption).
      destruct (Rlt_dec (fst w) 0); [discriminate|]. destruct (Rlt_dec (fst (chi * w)%C) 0); [discriminate|].
      intros [= <-] [= <-]. rewrite !clog_exp. transitivity (chi * w)%C; [symmetry; exact (isreal_eta _ Hcw)|]. f_equal. exact (isreal_eta _ Hw).
    + intros [= <-] [= <-]. now rewrite !clog_exp.
Qed.
Lemma moved_map_act (f : cpx -> cpx) L x n : Forall (fun r => length r = n) x -> (forall h, h < n -> L h < n) ->
  map (map f) (moved (r0 cC) L x) = moved (r0 cC) L (map (map f) x).
Proof.
  intros F HL. unfold moved. rewrite !map_map. apply map_ext_in. intros r Hr. rewrite Forall_forall in F. specialize (F r Hr).
  rewrite map_map, map_length. apply map_ext_in. intros h Hh. apply in_seq in Hh.
  rewrite (nth_indep (map f r) (r0 cC) (f (r0 cC))) by (rewrite map_length, F; apply HL; lia). now rewrite map_nth.
Qed.


Lemma weighted_real b x : (forall g, isreal (b g)) -> Forall (Forall isreal) x -> isreal (weighted_sum b x).
Proof.
  intros Hb. unfold weighted_sum. induction 1 as [|r x Hr Hx IH]; cbn [map lsum]; [reflexivity|].
  apply isreal_add; [|exact IH]. apply (real_if_sum true); [|reflexivity]. intros h _ _. apply isreal_mul; [apply Hb|].
  assert (H : isreal (nth h r (r0 cC))) by (apply (real_if_nth true r h); [|reflexivity]; eapply Forall_impl; [|exact Hr]; intros z Hz _; exact Hz).
  rewrite (isreal_eta _ H). unfold isreal, cexp. cbn. rewrite sin_0. ring.
Qed.

Lemma finish_defined_complex eq_amp z0 w : exists l, finish false eq_amp z0 w = Log l.
Proof. unfold finish. destruct eq_amp; eauto. Qed.
Lemma finish_equal real_out z0 w : exists l, finish real_out true z0 w = Log l /\ cnorm2 (amplitude l) = 1%R.
Proof.
  unfold finish. eexists. split; [reflexivity|]. cbn [amplitude]. unfold cnorm2, cexp. cbn [fst snd]. rewrite exp_0.
  set (t := if real_out then _ else _). pose proof (sin2_cos2 t) as E. unfold Rsqr in E. lra.
Qed.
Lemma finish_positive eq_amp z0 w : (0 <= fst w)%R -> exists l, finish true eq_amp z0 w = Log l.
Proof. intros H. unfold finish. destruct eq_amp; eauto. destruct (Rlt_dec (fst w) 0); [lra|eauto]. Qed.
Lemma weighted_nonneg b x : (forall g, isreal (b g) /\ 0 <= fst (b g))%R -> Forall (Forall isreal) x -> (0 <= fst (weighted_sum b x))%R.
Proof.
  intros Hb. unfold weighted_sum. induction 1 as [|r x Hr Hx IH]; cbn [map lsum]; [cbn; lra|].
  cbn [cC radd fst]. apply Rplus_le_le_0_compat; [|exact IH].
  assert (P : forall n, (0 <= fst (fsum cC n (fun g => (b g * cexp (nth g r (r0 cC)))%C)))%R); [|apply P].
  induction n as [|n IHn]; [cbn; lra|]. change (fsum cC (S n) ?f) with (fsum cC n f + f n)%C. cbn [cC radd fst].
  apply Rplus_le_le_0_compat; [exact IHn|].
  assert (H : isreal (nth n r (r0 cC))) by (apply (real_if_nth true r n); [|reflexivity]; eapply Forall_impl; [|exact Hr]; intros z Hz _; exact Hz).
  destruct (Hb n) as [B1 B2]. rewrite (isreal_eta _ H), (isreal_eta _ B1). unfold cexp. cbn [cC rmul fst snd]. rewrite cos_0, sin_0.
  pose proof (exp_pos (fst (nth n r (r0 cC)))). nra.
Qed.

Section NetworkMain.
  Variables (g : pgroup) (pt : list (list nat)).
  Hypothesis W : Forall (wf (degree g)) (elems g).
  Hypothesis ND : NoDup (perms g).
  Hypothesis PT : product_table g = Ok pt.
  Variables (real real_out : bool) (act oact : cpx -> cpx) (zp : list (list cpx) -> R).
  Hypothesis Hact : forall z, real_if real z -> real_if real (act z).

  Lemma transform_main (out : list cpx -> list (list cpx)) eq_amp chars x s l l' :
    (forall s k' L, In s (perms g) -> In k' (perms g) -> inverses (degree g) s k' -> translation (perms g) k' L ->
       out (permuted (r0 cC) s x) = moved (r0 cC) L (out x) /\ Forall (fun r => length r = length pt) (out x) /\
       Forall (Forall (real_if real)) (out x)) ->
    real_readout real real_out oact chars ->
    s < length (perms g) -> multiplicative (perms g) (fun h => nth h chars (r0 cC)) ->
    (eq_amp = true -> real_out = false /\ cnorm2 (nth s chars (r0 cC)) = 1%R /\ readout oact false chars false zp (out x) <> Log None) ->
    readout oact eq_amp chars real_out zp (out x) = Log l ->
    readout oact eq_amp chars real_out zp (out (permuted (r0 cC) (nth s (perms g) []) x)) = Log l' ->
    amplitude l' = (nth s chars (r0 cC) * amplitude l)%C.
  Proof.
    intros H HR Hs M Hn. destruct (table_facts g pt W PT) as (LP & _ & G & P & Q).
    assert (PG : permutation_group (degree g) (perms g)) by (split; [exact P|split; [exact G|exact ND]]).
    assert (Is : In (nth s (perms g) []) (perms g)) by (apply nth_In, Hs).
    destruct (proj1 (proj2 G) _ Is) as (k' & Ik & J).
    destruct (translation_exists _ _ k' P G Ik) as [L HL].
    destruct (H _ k' L Is Ik J HL) as (E & F & RR).
    assert (HL' : forall h, h < length pt -> L h < length pt) by (intros h Hh; rewrite LP in *; apply HL, Hh).
    set (w := weighted_sum (fun g => nth g chars (r0 cC)) (map (map oact) (out x))).
    assert (E' : weighted_sum (fun g => nth g chars (r0 cC)) (map (map oact) (out (permuted (r0 cC) (nth s (perms g) []) x)))
       = (nth s chars (r0 cC) * w)%C).
    { rewrite E. rewrite (moved_map_act oact L (out x) (length pt) F HL').
      apply (weighted_moved (degree g) (perms g) (nth s (perms g) []) k' L (fun g => nth g chars (r0 cC)) _ s); auto.
      rewrite <- LP. apply Forall_forall. intros r Hr. apply in_map_iff in Hr. destruct Hr as (r' & <- & Hr').
      rewrite map_length. rewrite Forall_forall in F. auto. }
    unfold readout at 1 2. rewrite E'. fold w. apply finish_transform.
    - intros Ho. destruct (HR Ho) as (Hr & Ha & Hch).
      assert (Hch' : forall h, isreal (nth h chars (r0 cC))).
      { intros h. apply (real_if_nth true chars h); [|reflexivity]. eapply Forall_impl; [|exact Hch]. intros z Hz _; exact Hz. }
      split; [apply Hch'|]. apply weighted_real; [exact Hch'|].
      rewrite Forall_forall in *. intros r Hr'. apply in_map_iff in Hr'. destruct Hr' as (r' & <- & Hr').
      specialize (RR _ Hr'). rewrite Forall_forall in *. intros z Hz. apply in_map_iff in Hz. destruct Hz as (y & <- & Hy).
      apply Ha, RR; auto.
    - intros Ee. destruct (Hn Ee) as (A & B & C). split; [exact A|]. split; [exact B|]. intros Z. apply C.
      unfold readout, finish. fold w. rewrite Z. unfold clog. destruct (Req_EM_T (cnorm2 (r0 cC)) 0) as [|N]; [reflexivity|].
      exfalso. apply N. unfold cnorm2. cbn. ring.
  Qed.

  Lemma irrep_moved irreps p x :
    Forall (representation (length pt) (fun h k => nth k (nth h pt []) 0)) irreps -> complete (length pt) irreps ->
    network_fits real (degree g) (length pt) p -> length x = degree g -> Forall (real_if real) x ->
    let out x := hidden_layers (fun l => dense_equivariant_irrep (length pt) irreps (g_in l) (g_out l) (g_kernel l) (g_bias l) real) act
      (gp_layers p) (dense_symm cC (perms g) (gp_features p) (gp_kernel p) None (gp_bias p) x) in
    forall s k' L, In s (perms g) -> In k' (perms g) -> inverses (degree g) s k' -> translation (perms g) k' L ->
       out (permuted (r0 cC) s x) = moved (r0 cC) L (out x) /\ Forall (fun r => length r = length pt) (out x) /\
       Forall (Forall (real_if real)) (out x).
  Proof.
    intros R Cm (Lk & Rk & Rb & Hf) Lx Rx out s' k' L Is Ik J HL. destruct (table_facts g pt W PT) as (LP & _ & G & P & Q).
    apply (network_moved g pt W ND PT real _ (fun l => swap3 (length pt) (g_in l) (g_out l) (g_kernel l))) with (k' := k'); auto.
    - intros. apply swap_length.
    - intros l1 F. unfold swap3. apply Forall_forall. intros z Hz. apply in_map_iff in Hz. destruct Hz as (i & <- & _). apply real_if_nth, F.
    - intros l1 y L1 S1 R1 B1 R2. apply (irrep_main g pt W ND PT); auto using swap3_ok. apply swap_length.
    - split; [exact P|split; [exact G|exact ND]].
  Qed.
  Lemma fft_moved shape spc q p x :
    lattice_group shape spc q (perms g) -> degree g = cells shape * spc ->
    network_fits real (degree g) (length pt) p -> length x = degree g -> Forall (real_if real) x ->
    let out x := hidden_layers (fun l => dense_equivariant_fft pt shape (g_in l) (g_out l) (g_kernel l) (g_bias l) real) act
      (gp_layers p) (dense_symm_fft (perms g) shape (gp_features p) (gp_kernel p) (gp_bias p) real x) in
    forall s k' L, In s (perms g) -> In k' (perms g) -> inverses (degree g) s k' -> translation (perms g) k' L ->
       out (permuted (r0 cC) s x) = moved (r0 cC) L (out x) /\ Forall (fun r => length r = length pt) (out x) /\
       Forall (Forall (real_if real)) (out x).
  Proof.
    intros LG Hd (Lk & Rk & Rb & Hf) Lx Rx out s' k' L Is Ik J HL. unfold out.
    destruct (table_facts g pt W PT) as (LP & _ & G & P & Q).
    assert (Rp : forall s, Forall (real_if real) (permuted (r0 cC) s x)).
    { intros s. unfold permuted. apply Forall_forall. intros z Hz. apply in_map_iff in Hz. destruct Hz as (i & <- & _). apply real_if_nth, Rx. }
    rewrite !(symm_fft_main shape spc q (perms g) (gp_features p) (swap2 (degree g) (gp_features p) (gp_kernel p)) (gp_kernel p));
      auto; try (rewrite <- ?Hd; first [apply swap_length | apply swap2_ok]).
    apply (network_moved g pt W ND PT real _
      (fun l => if length (g_kernel l) =? g_out l * g_in l * length pt then g_kernel l else repeat (r0 cC) (g_out l * g_in l * length pt)))
      with (k' := k'); auto.
    - intros l1. destruct (Nat.eqb_spec (length (g_kernel l1)) (g_out l1 * g_in l1 * length pt)); [assumption|apply repeat_length].
    - intros l1 F. destruct (length (g_kernel l1) =? _); [exact F|]. apply Forall_forall. intros z Hz. apply repeat_spec in Hz. subst. intros _. reflexivity.
    - intros l1 y L1 S1 R1 B1 R2. rewrite L1, Nat.eqb_refl. apply (equiv_fft_main g pt W ND PT shape spc q); auto.
    - split; [exact P|split; [exact G|exact ND]].
    - apply swap_length.
    - unfold swap2. apply Forall_forall. intros z Hz. apply in_map_iff in Hz. destruct Hz as (i & <- & _). apply real_if_nth, Rk.
  Qed.
  Lemma positive_main (out : list cpx -> list (list cpx)) eq_amp chars x :
    (forall s k' L, In s (perms g) -> In k' (perms g) -> inverses (degree g) s k' -> translation (perms g) k' L ->
       out (permuted (r0 cC) s x) = moved (r0 cC) L (out x) /\ Forall (fun r => length r = length pt) (out x) /\
       Forall (Forall (real_if real)) (out x)) ->
    real_readout real real_out oact chars -> (real_out = true -> Forall (fun z => 0 <= fst z)%R chars) ->
    exists l, readout oact eq_amp chars real_out zp (out x) = Log l.
  Proof.
    intros H HR Hpos. destruct (table_facts g pt W PT) as (LP & _ & G & P & Q).
    unfold readout. revert HR Hpos. destruct real_out; [|intros; apply finish_defined_complex]. intros HR Hpos.
    destruct (HR eq_refl) as (Hr & Ha & Hch). specialize (Hpos eq_refl). apply finish_positive.
    pose proof G as (NE & HI & _). destruct (perms g) as [|s rows] eqn:Er; [contradiction|]. rewrite <- Er in *.
    assert (Is : In s (perms g)) by (rewrite Er; left; reflexivity).
    destruct (HI _ Is) as (k' & Ik & J). destruct (translation_exists _ _ k' P G Ik) as [L HL].
    destruct (H _ k' L Is Ik J HL) as (_ & _ & RR). apply weighted_nonneg.
    - intros h. split.
      + apply (real_if_nth true chars h); [|reflexivity]. eapply Forall_impl; [|exact Hch]. intros z Hz _; exact Hz.
      + destruct (le_lt_dec (length chars) h) as [A|A]; [rewrite nth_overflow by exact A; cbn; lra|].
        rewrite Forall_forall in Hpos. apply Hpos, nth_In, A.
    - rewrite Forall_forall in *. intros r Hr'. apply in_map_iff in Hr'. destruct Hr' as (r' & <- & Hr').
      specialize (RR _ Hr'). rewrite Forall_forall in *. intros z Hz. apply in_map_iff in Hz. destruct Hz as (y & <- & Hy).
      apply Ha, RR; auto.
  Qed.

  Lemma gcnn_irrep_main irreps eq_amp chars p x s l l' :
    Forall (representation (length pt) (fun h k => nth k (nth h pt []) 0)) irreps -> complete (length pt) irreps ->
    network_fits real (degree g) (length pt) p -> length x = degree g -> Forall (real_if real) x ->
    real_readout real real_out oact chars ->
    s < length (perms g) -> multiplicative (perms g) (fun h => nth h chars (r0 cC)) ->
    (eq_amp = true -> real_out = false /\ cnorm2 (nth s chars (r0 cC)) = 1%R /\
       gcnn_irrep (perms g) irreps act oact false chars real false zp p x <> Log None) ->
    gcnn_irrep (perms g) irreps act oact eq_amp chars real real_out zp p x = Log l ->
    gcnn_irrep (perms g) irreps act oact eq_amp chars real real_out zp p (permuted (r0 cC) (nth s (perms g) []) x) = Log l' ->
    amplitude l' = (nth s chars (r0 cC) * amplitude l)%C.
  Proof.
    intros R Cm HF Lx Rx HR Hs M. unfold gcnn_irrep.
    destruct (table_facts g pt W PT) as (LP & _ & G & P & Q). rewrite <- LP.
    apply (transform_main _ eq_amp chars x s l l' (irrep_moved irreps p x R Cm HF Lx Rx)); auto.
  Qed.
  Lemma gcnn_irrep_positive irreps eq_amp chars p x :
    Forall (representation (length pt) (fun h k => nth k (nth h pt []) 0)) irreps -> complete (length pt) irreps ->
    network_fits real (degree g) (length pt) p -> length x = degree g -> Forall (real_if real) x ->
    real_readout real real_out oact chars -> (real_out = true -> Forall (fun z => 0 <= fst z)%R chars) ->
    exists l, gcnn_irrep (perms g) irreps act oact eq_amp chars real real_out zp p x = Log l.
  Proof.
    intros R Cm HF Lx Rx HR Hp. unfold gcnn_irrep.
    destruct (table_facts g pt W PT) as (LP & _ & G & P & Q). rewrite <- LP.
    apply (positive_main _ eq_amp chars x (irrep_moved irreps p x R Cm HF Lx Rx)); auto.
  Qed.
  Lemma gcnn_fft_main shape spc q eq_amp chars p x s l l' :
    lattice_group shape spc q (perms g) -> degree g = cells shape * spc ->
    network_fits real (degree g) (length pt) p -> length x = degree g -> Forall (real_if real) x ->
    real_readout real real_out oact chars ->
    s < length (perms g) -> multiplicative (perms g) (fun h => nth h chars (r0 cC)) ->
    (eq_amp = true -> real_out = false /\ cnorm2 (nth s chars (r0 cC)) = 1%R /\
       gcnn_fft (perms g) pt shape act oact false chars real false zp p x <> Log None) ->
    gcnn_fft (perms g) pt shape act oact eq_amp chars real real_out zp p x = Log l ->
    gcnn_fft (perms g) pt shape act oact eq_amp chars real real_out zp p (permuted (r0 cC) (nth s (perms g) []) x) = Log l' ->
    amplitude l' = (nth s chars (r0 cC) * amplitude l)%C.
  Proof.
    intros LG Hd HF Lx Rx HR Hs M. unfold gcnn_fft.
    apply (transform_main _ eq_amp chars x s l l' (fft_moved shape spc q p x LG Hd HF Lx Rx)); auto.
  Qed.
  Lemma gcnn_fft_positive shape spc q eq_amp chars p x :
    lattice_group shape spc q (perms g) -> degree g = cells shape * spc ->
    network_fits real (degree g) (length pt) p -> length x = degree g -> Forall (real_if real) x ->
    real_readout real real_out oact chars -> (real_out = true -> Forall (fun z => 0 <= fst z)%R chars) ->
    exists l, gcnn_fft (perms g) pt shape act oact eq_amp chars real real_out zp p x = Log l.
  Proof.
    intros LG Hd HF Lx Rx HR Hp. unfold gcnn_fft.
    apply (positive_main _ eq_amp chars x (fft_moved shape spc q p x LG Hd HF Lx Rx)); auto.
  Qed.
End NetworkMain.

(** ** parity *)
Lemma parity_raises oact eq_amp chars parity real_out zp n x : length chars = n -> 2 <= n ->
  parity_readout oact eq_amp chars parity real_out zp n x = Err ValueError.
Proof.
  intros L H. unfold parity_readout.
  assert (E : length (if (parity =? 1)%Z then chars ++ chars else chars ++ map (ropp cC) chars) = 2 * n).
  { destruct (parity =? 1)%Z; rewrite app_length, ?map_length; lia. }
  rewrite E. destruct (Nat.eqb_spec n (2 * n)); [lia|]. destruct (Nat.eqb_spec n 1); [lia|]. destruct (Nat.eqb_spec (2 * n) 1); [lia|]. reflexivity.
Qed.
Lemma rows_one_sum (x : list (list cpx)) b b' : Forall (fun r => length r = 1) x ->
  lsum cC (map (fun row => fsum cC 2 (fun g => (nth g [b; b'] (r0 cC) * cexp (nth (if length row =? 1 then 0 else g) row (r0 cC)))%C)) x)
  = ((b + b') * lsum cC (map (fun row => cexp (nth 0 row (r0 cC))) x))%C.
Proof.
  induction 1 as [|r x Hr Hx IH]; cbn [map lsum]; [rg|]. rewrite IH, Hr. cbn [Nat.eqb fsum nth]. rg.
Qed.
Lemma parity_one oact eq_amp c parity real_out zp x :
  Forall (fun r => length r = 1) (fst x) -> Forall (fun r => length r = 1) (snd x) ->
  let y := map (map oact) (fst x ++ snd x) in
  parity_readout oact eq_amp [c] parity real_out zp 1 x
  = Ok (finish real_out eq_amp (zp y)
     ((c + if (parity =? 1)%Z then c else ropp cC c) * lsum cC (map (fun row => cexp (nth 0 row (r0 cC))) y))%C).
Proof.
  intros F1 F2 y. unfold parity_readout. fold y. destruct (parity =? 1)%Z; cbn [map app length Nat.eqb orb Nat.max]; f_equal; f_equal;
    apply rows_one_sum; unfold y; apply Forall_forall; intros r Hr; apply in_map_iff in Hr; destruct Hr as (r' & <- & Hr');
    rewrite map_length; apply in_app_or in Hr'; rewrite Forall_forall in *; destruct Hr'; auto.
Qed.
Lemma sum_halves_one a b : Forall (fun r => length r = 1) a -> Forall (fun r => length r = 1) b ->
  Forall (fun r : list cpx => length r = 1) (sum_halves a b).
Proof.
  intros Ha Hb. unfold sum_halves. apply Forall_forall. intros r Hr. apply in_map_iff in Hr. destruct Hr as ((p & q) & <- & Hp).
  rewrite map_length, combine_length. cbn [fst snd]. rewrite Forall_forall in *.
  rewrite (Ha p), (Hb q); [reflexivity| |]; [eapply in_combine_r|eapply in_combine_l]; eauto.
Qed.
Lemma parity_layers_one layer act ls : (forall l x, Forall (fun r => length r = 1) (layer l x)) -> forall x,
  Forall (fun r => length r = 1) (fst x) -> Forall (fun r => length r = 1) (snd x) ->
  Forall (fun r => length r = 1) (fst (parity_layers layer act ls x)) /\ Forall (fun r => length r = 1) (snd (parity_layers layer act ls x)).
Proof.
  intros H. induction ls as [|l ls IH]; intros x H1 H2; [split; assumption|]. unfold parity_layers. cbn [fold_left].
  change (fold_left _ ls ?y) with (parity_layers layer act ls y). apply IH; cbn [fst snd]; apply sum_halves_one; apply H.
Qed.
Lemma sum_halves_comm a b : sum_halves a b = sum_halves b a.
Proof.
  unfold sum_halves. revert b. induction a as [|r a IH]; intros [|r' b]; cbn [combine map]; try reflexivity. f_equal; [|apply IH].
  cbn [fst snd]. clear. revert r'. induction r as [|z r IH]; intros [|z' r']; cbn [combine map]; try reflexivity. f_equal; [|apply IH].
  cbn [fst snd]. f_equal. rg.
Qed.
Lemma parity_layers_swap layer act ls : forall x, parity_layers layer act ls (snd x, fst x)
  = (snd (parity_layers layer act ls x), fst (parity_layers layer act ls x)).
Proof.
  induction ls as [|l ls IH]; intros x; [reflexivity|]. unfold parity_layers. cbn [fold_left fst snd].
  change (fold_left _ ls ?y) with (parity_layers layer act ls y). rewrite <- IH. reflexivity.
Qed.
Lemma lsum_app_comm (a b : list cpx) : lsum cC (a ++ b) = lsum cC (b ++ a).
Proof. rewrite !(lsum_app cC cC_laws). rg. Qed.
Lemma opp_opp (x : list cpx) : map (ropp cC) (map (ropp cC) x) = x.
Proof. rewrite map_map. rewrite <- (map_id x) at 2. apply map_ext. intros z. rg. Qed.

Lemma irrep_rows (sg : list (list nat)) irreps real l x : Forall (fun r => length r = length sg)
  (dense_equivariant_irrep (length sg) irreps (g_in l) (g_out l) (g_kernel l) (g_bias l) real x).
Proof.
  unfold dense_equivariant_irrep. apply Forall_forall. intros r Hr. apply in_map_iff in Hr. destruct Hr as (o & <- & _).
  now rewrite map_length, seq_length.
Qed.
Lemma symm_rows sg features kernel bias x : Forall (fun r => length r = length sg) (dense_symm cC sg features kernel None bias x).
Proof. apply (symm_shaped cC sg features kernel None bias x). Qed.
Section ParityOne.
  Variables (s : list nat) (irreps : list irrep) (act oact : cpx -> cpx) (eq_amp : bool) (c : cpx) (real real_out : bool)
    (zp : list (list cpx) -> R) (p : parity_params).
  Let first x := dense_symm cC [s] (pp_features p) (pp_kernel p) None (pp_bias p) x.
  Let h x := parity_layers (fun l => dense_equivariant_irrep 1 irreps (g_in l) (g_out l) (g_kernel l) (g_bias l) real)
             act (pp_layers p) (first x, first (map (ropp cC) x)).
  Lemma h_rows x : Forall (fun r => length r = 1) (fst (h x)) /\ Forall (fun r => length r = 1) (snd (h x)).
  Proof.
    unfold h. apply parity_layers_one; cbn [fst snd].
    - intros l y. apply (irrep_rows [s]).
    - apply (symm_rows [s]).
    - apply (symm_rows [s]).
  Qed.
  Lemma parity_vanishes parity x : parity <> 1%Z ->
    gcnn_parity_irrep [s] irreps act oact false [c] parity real false zp p x = Ok (Log None).
  Proof.
    intros Hp. unfold gcnn_parity_irrep. cbn [length]. destruct (h_rows x) as [H1 H2]. fold (first x) (first (map (ropp cC) x)). fold (h x).
    rewrite (parity_one oact false c parity false zp (h x) H1 H2). destruct (Z.eqb_spec parity 1); [contradiction|]. f_equal.
    set (w := lsum cC _). replace ((c + ropp cC c) * w)%C with (r0 cC) by rg. unfold finish, clog.
    destruct (Req_EM_T (cnorm2 (r0 cC)) 0) as [|N]; [reflexivity|]. exfalso. apply N. unfold cnorm2. cbn. ring.
  Qed.
  Lemma parity_even x : (forall y y', zp (y ++ y') = zp (y' ++ y)) ->
    gcnn_parity_irrep [s] irreps act oact eq_amp [c] 1 real real_out zp p (map (ropp cC) x)
    = gcnn_parity_irrep [s] irreps act oact eq_amp [c] 1 real real_out zp p x.
  Proof.
    intros Hz. unfold gcnn_parity_irrep. cbn [length].
    fold (first x) (first (map (ropp cC) x)) (first (map (ropp cC) (map (ropp cC) x))). fold (h x) (h (map (ropp cC) x)).
    assert (E : h (map (ropp cC) x) = (snd (h x), fst (h x))).
    { unfold h. rewrite opp_opp. apply (parity_layers_swap _ act (pp_layers p) (first x, first (map (ropp cC) x))). }
    destruct (h_rows x) as [H1 H2].
    rewrite (parity_one oact eq_amp c 1 real_out zp (h x) H1 H2).
    rewrite (parity_one oact eq_amp c 1 real_out zp (h (map (ropp cC) x))) by (rewrite E; assumption).
    rewrite E. cbn [fst snd]. f_equal. rewrite !map_app, (Hz (map (map oact) (snd (h x)))), lsum_app_comm. reflexivity.
  Qed.
End ParityOne.

(** ** the function GCNN *)
Lemma make_lattice pg has m irreps pt shape chars parity : pg || has = true -> m = MAuto \/ m = MFft ->
  (forall n b, chars <> APlain n b) ->
  gcnn_make (SLattice has) pg m irreps pt shape chars parity = inr (if (parity =? 0)%Z then CFft else CParityFft).
Proof.
  intros H Hm Hc. unfold gcnn_make. cbn [gcnn_mode]. rewrite H.
  destruct Hm as [-> | ->]; cbn [mode_eqb andb negb]; (destruct chars; [reflexivity|reflexivity|exfalso; eapply Hc; reflexivity]).
Qed.
Lemma make_irreps s pg m irreps pt shape chars parity :
  (s = SGroup \/ (s = SArray /\ irreps = true) \/ (s = SLattice true /\ m = MIrreps)) -> m = MAuto \/ m = MIrreps ->
  (forall n b, chars <> APlain n b) ->
  gcnn_make s pg m irreps pt shape chars parity = inr (if (parity =? 0)%Z then CIrrep else CParityIrrep).
Proof.
  intros Hs Hm Hc. unfold gcnn_make.
  destruct Hs as [-> | [[-> ->] | [-> E]]]; destruct Hm as [-> | ->]; try discriminate E; cbn [gcnn_mode orb andb negb mode_eqb];
    rewrite ?Bool.orb_true_r; cbn [gcnn_mode orb andb negb mode_eqb];
    (destruct chars; [reflexivity|reflexivity|exfalso; eapply Hc; reflexivity]).
Qed.
Lemma make_errors :
  (forall pg m irreps pt shape chars parity, gcnn_make SGraph pg m irreps pt shape chars parity = inl NameErr) /\
  (forall m irreps pt shape chars parity, gcnn_make (SLattice false) false m irreps pt shape chars parity = inl NameErr) /\
  (forall s pg irreps pt shape chars parity, exists e, gcnn_make s pg MMatrix irreps pt shape chars parity = inl e) /\
  (forall s pg m irreps pt shape n b parity, 2 <= n -> exists e, gcnn_make s pg m irreps pt shape (APlain n b) parity = inl e).
Proof.
  split; [reflexivity|]. split; [reflexivity|]. split.
  - intros s pg irreps pt shape chars parity. unfold gcnn_make.
    destruct s as [has| | |]; cbn [gcnn_mode]; [destruct (pg || has)| | |destruct irreps, pt]; cbn [mode_eqb andb orb negb]; eauto;
      destruct chars as [|k|k b]; eauto; destruct (2 <=? k); eauto.
  - intros s pg m irreps pt shape n b parity H. apply Nat.leb_le in H. unfold gcnn_make.
    destruct (gcnn_mode s pg m irreps pt shape) as [e|[m' sh]]; eauto. destruct (mode_eqb m' MFft && negb sh); eauto. rewrite H. eauto.
Qed.

(** ** examples *)
Lemma weighted_one b n D : shaped 1 n D -> weighted_sum b D = fsum cC n (fun g => (b g * cexp (nth g (nth 0 D []) (r0 cC)))%C).
Proof.
  intros [L F]. destruct D as [|r [|]]; try discriminate L. apply Forall_cons_iff in F. destruct F as [Lr _].
  unfold weighted_sum. cbn [map lsum nth]. rewrite Lr. rg.
Qed.
Lemma cexp_ln2 m a : (a = INR m * ln 2)%R -> cexp (a, 0%R) = ((2 ^ m)%R, 0%R).
Proof.
  intros ->. unfold cexp. cbn [fst snd]. rewrite cos_0, sin_0. rewrite Rmult_1_r, Rmult_0_r. f_equal.
  induction m as [|m IH]; [cbn; rewrite Rmult_0_l; apply exp_0|]. rewrite S_INR, Rmult_plus_distr_r, exp_plus, IH, Rmult_1_l, exp_ln by lra. cbn. ring.
Qed.
(** all permutations of three sites *)
Definition s3_bad : pgroup := PG [EId; EPerm [0;2;1]; EPerm [1;2;0]; EPerm [1;0;2]; EPerm [2;0;1]; EPerm [2;1;0]] 3.
Definition s3 : pgroup := PG [EId; EPerm [0;2;1]; EPerm [2;0;1]; EPerm [1;0;2]; EPerm [1;2;0]; EPerm [2;1;0]] 3.
Ltac wf3 := repeat constructor; apply NoDup_Permutation_bis; try (repeat constructor; cbn; intuition lia); cbn; auto;
      intros a; cbn; intuition lia.
Lemma s3_bad_wf : Forall (wf 3) (elems s3_bad). Proof. wf3. Qed.
Lemma s3_wf : Forall (wf 3) (elems s3). Proof. wf3. Qed.
Lemma s3_bad_nodup : NoDup (perms s3_bad). Proof. repeat constructor; cbn; intuition discriminate. Qed.
Lemma s3_nodup : NoDup (perms s3). Proof. repeat constructor; cbn; intuition discriminate. Qed.
Lemma s3_lattice : lattice_group [3] 1 2 (perms s3).
Proof.
  split; [repeat constructor; lia|]. split; [lia|]. split; [lia|]. split; [reflexivity|].
  exists (fun b => nth b [[0;1;2];[0;2;1]] []). intros b Hb. split.
  - destruct b as [|[|b]]; [| |lia]; apply NoDup_Permutation_bis; try (repeat constructor; cbn; intuition lia); cbn; auto;
      intros a; cbn; intuition lia.
  - intros c Hc. cbn in Hc. destruct b as [|[|b]]; [| |lia]; (destruct c as [|[|[|c]]]; [reflexivity|reflexivity|reflexivity|lia]).
Qed.
Definition ln2s (m : nat) : cpx := ((INR m * ln 2)%R, 0%R).
Definition num (m : nat) : cpx := (INR m, 0%R).
Definition bad_net : gcnn_params := GcnnParams 1 [ln2s 1; ln2s 2; ln2s 0] None [].
Lemma num_ln2 a b : (num a * ln2s b)%C = ln2s (a * b).
Proof. unfold num, ln2s. rewrite mult_INR. cpx; ring. Qed.
Lemma ln2_add a b : (ln2s a + ln2s b)%C = ln2s (a + b).
Proof. unfold ln2s. rewrite plus_INR. cpx; ring. Qed.
Lemma ln2_zero : r0 cC = ln2s 0.
Proof. unfold ln2s. cbn. f_equal. ring. Qed.
Lemma cexp_ln2s m : cexp (ln2s m) = ((2 ^ m)%R, 0%R).
Proof. unfold ln2s. now apply cexp_ln2. Qed.

Lemma bad_value x0 x1 x2 zp pt :
  gcnn_fft (perms s3_bad) pt [3] (fun z => z) (fun z => z) false (repeat (r1 cC) 6) false false zp bad_net [num x0; num x1; num x2]
  = Log (clog ((2 * (2 ^ (x0 + x2 * 2) + 2 ^ (x0 * 2 + x1) + 2 ^ (x1 * 2 + x2)))%R, 0%R)).
Proof.
  unfold gcnn_fft. cbn [gp_layers bad_net hidden_layers fold_left gp_features gp_kernel gp_bias].
  unfold readout. rewrite finish_complex. do 2 f_equal.
  set (D := dense_symm_fft _ _ _ _ _ _ _).
  assert (F : Forall (fun n => 0 < n) [3]) by (repeat constructor; lia).
  assert (E : forall c b, b < 2 -> c < 3 -> nth (c * 2 + b) (nth 0 D []) (r0 cC) =
     fsum cC 3 (fun c' => fsum cC 1 (fun s =>
        (nth (c' * 1 + s)%nat [num x0; num x1; num x2] (r0 cC) *
         nth (nth s (nth (csub [3] c c' * 2 + b)%nat (perms s3_bad) []) O)%nat [ln2s 1; ln2s 2; ln2s 0] (r0 cC))%C))).
  { intros c b Hb Hc. unfold D. rewrite (symm_fft_entry [3] 1 2 (perms s3_bad) F) by (first [lia|reflexivity|exact Hc]). reflexivity. }
  assert (S1 : shaped 1 6 D).
  { unfold D. pose proof (symm_fft_shaped [3] 1 2 (perms s3_bad) F) as H. apply H; (reflexivity || lia). }
  assert (M : map (map (fun z : cpx => z)) D = D).
  { rewrite <- (map_id D) at 2. apply map_ext. intros r. apply map_id. }
  rewrite M, (weighted_one _ 6 D S1). clearbody D. cbn [fsum].
  pose proof (E 0 0 ltac:(lia) ltac:(lia)) as E0. pose proof (E 0 1 ltac:(lia) ltac:(lia)) as E1.
  pose proof (E 1 0 ltac:(lia) ltac:(lia)) as E2. pose proof (E 1 1 ltac:(lia) ltac:(lia)) as E3.
  pose proof (E 2 0 ltac:(lia) ltac:(lia)) as E4. pose proof (E 2 1 ltac:(lia) ltac:(lia)) as E5. clear E.
  cbn [fsum] in E0, E1, E2, E3, E4, E5. cbn -[num ln2s radd rmul cC] in E0, E1, E2, E3, E4, E5.
  rewrite E0, E1, E2, E3, E4, E5. cbn [repeat nth]. rewrite ln2_zero.
  rewrite !num_ln2. rewrite !ln2_add. rewrite !cexp_ln2s.
  replace (0 + (0 + x0 * 1) + (0 + x1 * 0) + (0 + x2 * 2)) with (x0 + x2 * 2) by lia.
  replace (0 + (0 + x0 * 2) + (0 + x1 * 1) + (0 + x2 * 0)) with (x0 * 2 + x1) by lia.
  replace (0 + (0 + x0 * 0) + (0 + x1 * 2) + (0 + x2 * 1)) with (x1 * 2 + x2) by lia.
  unfold ln2s. cpx; cbn [INR]; ring.
Qed.
Lemma log_positive r l : Log (clog (r, 0%R)) = Log l -> amplitude l = (r, 0%R).
Proof. intros [= <-]. apply clog_exp. Qed.
Lemma order_refuted : exists g pt shape p act oact chars zp x s l l',
  Forall (wf (degree g)) (elems g) /\ NoDup (perms g) /\ product_table g = Ok pt /\
  length (perms g) = cells shape * 2 /\ degree g = cells shape /\ network_fits false (degree g) (length pt) p /\ length x = degree g /\
  s < length (perms g) /\ Forall (eq (r1 cC)) chars /\ length chars = length pt /\
  gcnn_fft (perms g) pt shape act oact false chars false false zp p x = Log l /\
  gcnn_fft (perms g) pt shape act oact false chars false false zp p (permuted (r0 cC) (nth s (perms g) []) x) = Log l' /\
  amplitude l' <> amplitude l.
Proof.
  destruct (product_table s3_bad) as [pt|e] eqn:E; [|vm_compute in E; discriminate E].
  exists s3_bad, pt, [3], bad_net, (fun z => z), (fun z => z), (repeat (r1 cC) 6), (fun _ => 0%R), [num 1; num 2; num 0], 1. do 2 eexists.
  destruct (table_facts s3_bad pt s3_bad_wf E) as (LP & _).
  split; [exact s3_bad_wf|]. split; [exact s3_bad_nodup|]. split; [exact E|]. split; [reflexivity|]. split; [reflexivity|].
  split. { split; [reflexivity|]. split; [|split; [exact I|exact I]]. repeat constructor; intros H; discriminate H. }
  split; [reflexivity|]. split; [cbn; lia|]. split; [repeat constructor|]. split; [rewrite LP; reflexivity|].
  split; [apply bad_value|]. split; [apply (bad_value 1 0 2)|].
  rewrite !clog_exp. intros H. apply (f_equal fst) in H. cbn in H. lra.
Qed.

(** two sites *)
Definition z2 : pgroup := PG [EId; EPerm [1;0]] 2.
Definition z2_irreps : list irrep := [Irrep 1 (fun _ _ _ => r1 cC); Irrep 1 (fun h _ _ => if h =? 0 then r1 cC else (-1, 0)%R)].
Lemma z2_wf : Forall (wf 2) (elems z2).
Proof.
  repeat constructor; apply NoDup_Permutation_bis; try (repeat constructor; cbn; intuition lia); cbn; auto; intros a; cbn; intuition lia.
Qed.
Lemma z2_nodup : NoDup (perms z2). Proof. repeat constructor; cbn; intuition discriminate. Qed.
Lemma z2_table : product_table z2 = Ok [[0;1];[1;0]]. Proof. reflexivity. Qed.
Lemma z2_representation : Forall (representation 2 (fun h k => nth k (nth h [[0;1];[1;0]] []) 0)) z2_irreps.
Proof.
  repeat constructor; intros h g i j Hh Hg Hi Hj; cbn in Hi, Hj; (destruct h as [|[|h]]; [| |lia]); (destruct g as [|[|g]]; [| |lia]);
    cbn [ir_dim ir_mat fsum nth Nat.eqb]; cpx; cbn; ring.
Qed.
Lemma z2_complete : complete 2 z2_irreps.
Proof.
  intros h g Hh Hg. (destruct h as [|[|h]]; [| |lia]); (destruct g as [|[|g]]; [| |lia]);
    unfold z2_irreps; cbn [map lsum ir_dim ir_mat fsum Nat.eqb]; unfold rscal; cpx; cbn; field.
Qed.
Definition z2_sign : list cpx := [r1 cC; (-1, 0)%R].
Lemma z2_multiplicative : multiplicative (perms z2) (fun h => nth h z2_sign (r0 cC)).
Proof.
  intros h g k Hh Hg Hk. cbn in Hh, Hg, Hk. (destruct h as [|[|h]]; [| |lia]); (destruct g as [|[|g]]; [| |lia]); (destruct k as [|[|k]]; [| |lia]);
    cbn; intros H; try discriminate H; apply injective_projections; cbn; ring.
Qed.
Definition z2_net : gcnn_params := GcnnParams 1 [ln2s 1; ln2s 2] None [].
Lemma z2_value real_out x0 x1 zp :
  gcnn_irrep (perms z2) z2_irreps (fun z => z) (fun z => z) false z2_sign true real_out zp z2_net [num x0; num x1]
  = finish real_out false (zp (dense_symm cC (perms z2) 1 [ln2s 1; ln2s 2] None None [num x0; num x1])) ((2 ^ (x0 + x1 * 2) - 2 ^ (x0 * 2 + x1))%R, 0%R).
Proof.
  unfold gcnn_irrep. cbn [gp_layers z2_net hidden_layers fold_left gp_features gp_kernel gp_bias].
  set (D := dense_symm _ _ _ _ _ _ _). unfold readout.
  assert (M : map (map (fun z : cpx => z)) D = D) by (rewrite <- (map_id D) at 2; apply map_ext; intros r; apply map_id).
  rewrite M. f_equal.
  assert (P : Forall (isperm 2) (perms z2)) by exact (proj1 (proj2 (proj2 (proj2 (table_facts z2 _ z2_wf eq_refl))))).
  assert (E : forall s, s < 2 -> nth s (nth 0 D []) (r0 cC) =
    fsum cC 2 (fun i => nth i [num x0; num x1] (r0 cC) * weight cC 1 [ln2s 1; ln2s 2] None (nth i (nth s (perms z2) []) O) 0)%C).
  { intros s Hs. unfold D. rewrite (symm_entry cC 2) by (first [exact P|reflexivity|lia|exact Hs]). reflexivity. }
  assert (S1 : shaped 1 2 D) by (unfold D; apply (symm_shaped cC (perms z2))).
  rewrite (weighted_one _ 2 D S1). clearbody D. cbn [fsum].
  pose proof (E 0 ltac:(lia)) as E0. pose proof (E 1 ltac:(lia)) as E1. clear E.
  cbn [fsum weight] in E0, E1. cbn -[num ln2s radd rmul cC] in E0, E1.
  rewrite E0, E1. cbn [z2_sign nth]. rewrite ln2_zero, !num_ln2, !ln2_add, !cexp_ln2s.
  replace (0 + x0 * 1 + x1 * 2) with (x0 + x1 * 2) by lia. replace (0 + x0 * 2 + x1 * 1) with (x0 * 2 + x1) by lia.
  unfold ln2s. cpx; cbn [INR]; ring.
Qed.
Lemma z2_fits real : network_fits real 2 2 z2_net.
Proof. split; [reflexivity|]. split; [|split; exact I]. repeat constructor; intros _; reflexivity. Qed.
Lemma sign_refuted : exists g pt irreps p act oact chars zp x,
  Forall (wf (degree g)) (elems g) /\ NoDup (perms g) /\ product_table g = Ok pt /\
  Forall (representation (length pt) (fun h k => nth k (nth h pt []) 0)) irreps /\ complete (length pt) irreps /\
  network_fits true (degree g) (length pt) p /\ length x = degree g /\ Forall (real_if true) x /\
  real_readout true true oact chars /\ multiplicative (perms g) (fun h => nth h chars (r0 cC)) /\
  gcnn_irrep (perms g) irreps act oact false chars true true zp p x = NaN.
Proof.
  exists z2, [[0;1];[1;0]], z2_irreps, z2_net, (fun z => z), (fun z => z), z2_sign, (fun _ => 0%R), [num 1; num 0].
  split; [exact z2_wf|]. split; [exact z2_nodup|]. split; [reflexivity|]. split; [exact z2_representation|]. split; [exact z2_complete|].
  split; [exact (z2_fits true)|]. split; [reflexivity|]. split; [repeat constructor; intros _; reflexivity|].
  split. { intros _. split; [reflexivity|]. split; [auto|]. repeat constructor; reflexivity. }
  split; [exact z2_multiplicative|]. rewrite z2_value. unfold finish. cbn [fst].
  destruct (Rlt_dec _ 0) as [|N]; [reflexivity|]. exfalso. apply N. cbn. lra.
Qed.
