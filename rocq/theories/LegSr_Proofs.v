From Coq Require Import List Arith ZArith Lia Bool Reals Lra.
From Verif Require Import Base Rings ARNN_Model ARNN_Proofs ToArray_Model Estim_Model Estim_Spec Estim_Proofs
  Balance_Spec Balance_Proofs LegQsr_Spec LegQsr_Proofs LegQsr_Step LegQsr_Final LegVmc_Model LegVmc_Proofs LegSr_Model LegSr_Spec.
Import ListNotations.
Open Scope R_scope.

(** ** positive matrices have solutions *)
Definition quad (n : nat) (M : mat) (v : vec) : cpx := fsum cC n (fun i => (conj (v i) * fsum cC n (fun j => (M i j * v j)%C))%C).
Definition norm2 (n : nat) (v : vec) : R := fsum rR n (fun i => cnorm2 (v i)).
Definition positive (n : nat) (e : R) (M : mat) : Prop := forall v, e * norm2 n v <= fst (quad n M v).
Definition cinv (a : cpx) : cpx := (fst a / cnorm2 a, - snd a / cnorm2 a).
Lemma cinv_r a : cnorm2 a <> 0 -> (a * cinv a)%C = r1 cC.
Proof. intros H. unfold cinv. cpx; unfold cnorm2 in *; field; exact H. Qed.
Lemma cnorm2_nonneg a : 0 <= cnorm2 a.
Proof. unfold cnorm2. nra. Qed.
Lemma norm2_nonneg n v : 0 <= norm2 n v.
Proof. unfold norm2. induction n as [|n IH]; cbn [fsum]; [cbn; lra|]. change (0 <= fsum rR n (fun i => cnorm2 (v i)) + cnorm2 (v n)). pose proof (cnorm2_nonneg (v n)). lra. Qed.
Lemma norm2_S n v : norm2 (S n) v = norm2 n v + cnorm2 (v n).
Proof. reflexivity. Qed.
Lemma fsum_S n (f : nat -> cpx) : fsum cC (S n) f = (fsum cC n f + f n)%C.
Proof. reflexivity. Qed.
Lemma norm2_ext n v w : (forall i, (i < n)%nat -> v i = w i) -> norm2 n v = norm2 n w.
Proof. intros H. unfold norm2. apply (fsum_ext rR). intros i Hi. rewrite (H i Hi). reflexivity. Qed.

Lemma corner n e M : 0 < e -> positive (S n) e M -> cnorm2 (M n n) <> 0.
Proof.
  intros He P. specialize (P (fun i => if (i =? n)%nat then r1 cC else r0 cC)).
  assert (N : norm2 (S n) (fun i => if (i =? n)%nat then r1 cC else r0 cC) = 1).
  { rewrite norm2_S, Nat.eqb_refl. unfold norm2. rewrite (fsum_zero rR rR_laws).
    - cbn [r0 rR]. unfold cnorm2. cbn. ring.
    - intros i Hi. destruct (Nat.eqb_spec i n); [lia|]. unfold cnorm2. cbn. ring. }
  assert (Q : quad (S n) M (fun i => if (i =? n)%nat then r1 cC else r0 cC) = M n n).
  { unfold quad. rewrite fsum_S, Nat.eqb_refl. rewrite (fsum_zero cC cC_laws).
    - rewrite fsum_S, Nat.eqb_refl. rewrite (fsum_zero cC cC_laws); [cpx; ring|].
      intros i Hi. destruct (Nat.eqb_spec i n); [lia|]. cpx; ring.
    - intros i Hi. destruct (Nat.eqb_spec i n); [lia|]. cpx; ring. }
  rewrite N, Q in P. unfold cnorm2. nra.
Qed.
Lemma solvable n : forall e M b, 0 < e -> positive n e M -> exists x, solves n M b x.
Proof.
  induction n as [|n IH]; intros e M b He P; [exists b; intros i Hi; lia|].
  pose proof (corner n e M He P) as Ha. pose proof (cinv_r _ Ha) as Hc. set (a := M n n) in *. set (c := cinv a) in *.
  set (M' := fun i j => (M i j - M i n * c * M n j)%C).
  assert (P' : positive n e M').
  { intros v. set (u := fsum cC n (fun j => (M n j * v j)%C)). set (t := (r0 cC - c * u)%C).
    set (w := fun i => if (i =? n)%nat then t else v i).
    assert (Wn : w n = t) by (unfold w; rewrite Nat.eqb_refl; reflexivity).
    assert (Wv : forall i, (i < n)%nat -> w i = v i) by (intros i Hi; unfold w; destruct (Nat.eqb_spec i n); [lia|reflexivity]).
    assert (Ew : forall i, fsum cC (S n) (fun j => (M i j * w j)%C) = (fsum cC n (fun j => (M i j * v j)%C) + M i n * t)%C).
    { intros i. rewrite fsum_S, Wn. f_equal. apply (fsum_ext cC). intros j Hj. rewrite (Wv j Hj). reflexivity. }
    assert (Q : quad (S n) M w = quad n M' v).
    { unfold quad. rewrite fsum_S, Ew, Wn. change (M n n) with a. change (fsum cC n (fun j => (M n j * v j)%C)) with u.
      assert (Z0 : (u + a * t)%C = r0 cC) by (unfold t; transitivity (u - (a * c) * u)%C; [ring|]; rewrite Hc; ring).
      rewrite Z0. transitivity (fsum cC n (fun i => (conj (w i) * fsum cC (S n) (fun j => (M i j * w j)%C))%C)); [ring|].
      apply (fsum_ext cC). intros i Hi. rewrite Ew, (Wv i Hi). f_equal.
      unfold M'. transitivity (fsum cC n (fun j => ((M i j * v j) - (M i n * c) * (M n j * v j))%C)).
      - rewrite (fsum_sub cC cC_laws), (fsum_scal cC cC_laws). fold u. unfold t. ring.
      - apply (fsum_ext cC). intros j Hj. ring. }
    rewrite <- Q. specialize (P w). rewrite norm2_S, Wn in P. rewrite <- (norm2_ext n w v Wv). pose proof (cnorm2_nonneg t). nra. }
  destruct (IH e M' (fun i => (b i - M i n * c * b n)%C) He P') as [x Hx].
  set (u := fsum cC n (fun j => (M n j * x j)%C)). set (t := (c * (b n - u))%C).
  exists (fun i => if (i =? n)%nat then t else x i). intros i Hi. rewrite fsum_S, Nat.eqb_refl.
  assert (E : fsum cC n (fun j => (M i j * (if (j =? n)%nat then t else x j))%C) = fsum cC n (fun j => (M i j * x j)%C)).
  { apply (fsum_ext cC). intros j Hj. destruct (Nat.eqb_spec j n); [lia|reflexivity]. }
  rewrite E. destruct (Nat.eq_dec i n) as [->|Ne].
  - fold u a. unfold t. transitivity (u + (a * c) * (b n - u))%C; [ring|]. rewrite Hc. ring.
  - specialize (Hx i ltac:(lia)). unfold M' in Hx.
    assert (E2 : fsum cC n (fun j => ((M i j - M i n * c * M n j) * x j)%C) = (fsum cC n (fun j => (M i j * x j)%C) - M i n * c * u)%C).
    { transitivity (fsum cC n (fun j => ((M i j * x j) - (M i n * c) * (M n j * x j))%C)); [apply (fsum_ext cC); intros j Hj; ring|].
      rewrite (fsum_sub cC cC_laws), (fsum_scal cC cC_laws). reflexivity. }
    rewrite E2 in Hx. unfold t.
    transitivity ((fsum cC n (fun j => (M i j * x j)%C) - M i n * c * u) + M i n * c * b n)%C; [ring|]. rewrite Hx. ring.
Qed.
Lemma positive_unique n e M b x y : 0 < e -> positive n e M -> solves n M b x -> solves n M b y -> forall i, (i < n)%nat -> x i = y i.
Proof.
  intros He P Hx Hy i Hi. set (d := fun i => (x i - y i)%C).
  assert (Q : quad n M d = r0 cC).
  { unfold quad. apply (fsum_zero cC cC_laws). intros k Hk.
    assert (E : fsum cC n (fun j => (M k j * d j)%C) = r0 cC).
    { transitivity (fsum cC n (fun j => ((M k j * x j) - (M k j * y j))%C)); [apply (fsum_ext cC); intros j Hj; unfold d; ring|].
      rewrite (fsum_sub cC cC_laws), (Hx k Hk), (Hy k Hk). ring. }
    rewrite E. ring. }
  specialize (P d). rewrite Q in P. cbn [r0 cC fst] in P. pose proof (norm2_nonneg n d) as Nn.
  assert (N0 : norm2 n d = 0) by nra.
  assert (D : cnorm2 (d i) = 0).
  { clear -N0 Hi. revert N0 Hi. induction n as [|n IH]; intros N0 Hi; [lia|]. rewrite norm2_S in N0. pose proof (norm2_nonneg n d). pose proof (cnorm2_nonneg (d n)).
    destruct (Nat.eq_dec i n) as [->|]; [lra|apply IH; lra || lia]. }
  unfold cnorm2, d in D. destruct (x i) as [a b'], (y i) as [a' b'']. cbn in D.
  assert (A : forall p q, p * p + q * q = 0 -> p = 0) by (intros p q H; assert (p * p = 0) as H0 by nra; destruct (Rmult_integral _ _ H0); assumption).
  f_equal.
  - apply Rminus_diag_uniq, (A _ (b' - b'')). lra.
  - apply Rminus_diag_uniq, (A _ (a - a')). lra.
Qed.

(** ** the matrix of the code is the covariance *)
Lemma cavg_is f l : cavg f l = rscal (/ INR (length l)) (lsum cC (map f l)).
Proof. unfold cavg. rewrite <- (cmean_map f l). unfold cmean. rewrite map_length. reflexivity. Qed.
Lemma mean_ranks t ranks (f : vec -> cpx) : balanced t ranks -> mean_all (map (map f) ranks) = cavg f (concat ranks).
Proof.
  intros (Ht & _ & F). unfold mean_all. rewrite map_map, cmean_map. unfold cavg.
  assert (E : forall g : vec -> R, average g (concat ranks) = average (fun r => average g r) ranks).
  { intros g. rewrite <- (average_blocks g (fun r => r) ranks t Ht F). rewrite flat_map_concat_map, map_id. reflexivity. }
  rewrite !E. f_equal; apply average_ext; intros r _; rewrite cmean_map; reflexivity.
Qed.
(** a sample less the mean of all of them *)
Definition dev (samples : list vec) (o : vec) : vec := fun k => (o k - cavg (fun o => o k) samples)%C.
Definition respects {A} (F : vec -> A) : Prop := forall o o', (forall k, o k = o' k) -> F o = F o'.
Lemma over_centered t ranks (F : vec -> cpx) : balanced t ranks -> respects F ->
  lsum cC (map (fun rows => lsum cC (map F rows)) (centered ranks)) = lsum cC (map (fun o => F (dev (concat ranks) o)) (concat ranks)).
Proof.
  intros B R. unfold centered.
  assert (E : forall rs, lsum cC (map (fun rows => lsum cC (map F rows))
      (map (map (fun (o : vec) k => (o k - mean_all (map (map (fun o => o k)) ranks))%C)) rs))
    = lsum cC (map (fun o => F (dev (concat ranks) o)) (concat rs))).
  { induction rs as [|r rs IH]; [reflexivity|]. cbn [map concat]. rewrite map_app, (lsum_app cC cC_laws). cbn [lsum map]. rewrite IH. f_equal.
    rewrite map_map. f_equal. apply map_ext. intros o. apply R. intros k. unfold dev. f_equal. exact (mean_ranks t ranks (fun o => o k) B). }
  apply E.
Qed.
Lemma s_complex_cov t ranks i j : balanced t ranks -> s_complex ranks i j = cov (concat ranks) i j.
Proof.
  intros B. unfold s_complex, gram, n_samp, cov. rewrite cavg_is. f_equal.
  apply (over_centered t ranks (fun o => (conj (o i) * o j)%C) B).
  intros o o' E. rewrite !E. reflexivity.
Qed.
Lemma s_real_one t ranks rows i j : balanced t ranks -> length ranks = 1%nat -> In rows (centered ranks) -> s_real ranks rows i j = cov (concat ranks) i j.
Proof.
  intros B L In. rewrite <- (s_complex_cov t ranks i j B). unfold s_real, s_complex. f_equal.
  assert (Lc : length (centered ranks) = 1%nat) by (unfold centered; rewrite map_length; exact L).
  destruct (centered ranks) as [|r [|]]; try discriminate. destruct In as [->|[]]. cbn [map lsum]. ring.
Qed.
(** the regularised matrix *)
Definition reg (shift : R) (samples : list vec) : mat := fun i j => (cov samples i j + (if (i =? j)%nat then (shift, 0%R) else r0 cC))%C.
Lemma reg_mul n shift samples v i : (i < n)%nat ->
  fsum cC n (fun j => (reg shift samples i j * v j)%C) = (fsum cC n (fun j => (cov samples i j * v j)%C) + rscal shift (v i))%C.
Proof.
  intros Hi. unfold reg.
  transitivity (fsum cC n (fun j => ((cov samples i j * v j) + (if (i =? j)%nat then rscal shift (v i) else r0 cC))%C)).
  - apply (fsum_ext cC). intros j Hj. destruct (Nat.eqb_spec i j) as [<-|]; cpx; unfold rscal; cbn; ring.
  - rewrite (fsum_add cC cC_laws). f_equal. rewrite (fsum_ext cC n _ (fun j => if (j =? i)%nat then rscal shift (v i) else r0 cC)).
    + apply (fsum_delta cC cC_laws n (fun _ => rscal shift (v i)) i Hi).
    + intros j Hj. rewrite Nat.eqb_sym. reflexivity.
Qed.

(** ** products with vectors *)
Lemma fsum_lsum_swap {A} n (g : A -> nat -> cpx) l : fsum cC n (fun j => lsum cC (map (fun a => g a j) l)) = lsum cC (map (fun a => fsum cC n (g a)) l).
Proof.
  induction l as [|a l IH]; [apply (fsum_zero cC cC_laws); reflexivity|]. cbn [map lsum]. rewrite <- IH. rewrite <- (fsum_add cC cC_laws).
  apply (fsum_ext cC). intros j _. reflexivity.
Qed.
Lemma lsum_mul_r {A} (c : cpx) (g : A -> cpx) l : lsum cC (map (fun a => (g a * c)%C) l) = (lsum cC (map g l) * c)%C.
Proof. induction l as [|a l IH]; cbn [map lsum]; [ring|]. rewrite IH. ring. Qed.
Lemma rscal_mul r a b : (rscal r a * b)%C = rscal r (a * b)%C.
Proof. unfold rscal. cpx; cbn; ring. Qed.
Lemma rscal_lsum {A} r (g : A -> cpx) l : rscal r (lsum cC (map g l)) = lsum cC (map (fun a => rscal r (g a)) l).
Proof. induction l as [|a l IH]; cbn [map lsum]; [unfold rscal; cbn; f_equal; ring|]. rewrite <- IH. unfold rscal. cpx; cbn; ring. Qed.
Lemma matvec_is n shift t ranks v i : balanced t ranks -> (i < n)%nat ->
  matvec n shift ranks false v i = fsum cC n (fun j => (reg shift (concat ranks) i j * v j)%C).
Proof.
  intros B Hi. rewrite (reg_mul n shift _ v i Hi). unfold matvec. f_equal.
  etransitivity; [apply (over_centered t ranks (fun o => (rscal (/ INR (n_samp ranks)) (fsum cC n (fun j => o j * v j)%C) * conj (o i))%C) B)|].
  - intros o o' E. rewrite E. f_equal. f_equal. apply (fsum_ext cC). intros j _. rewrite E. reflexivity.
  - transitivity (fsum cC n (fun j => lsum cC (map (fun o => rscal (/ INR (length (concat ranks))) (conj (dev (concat ranks) o i) * dev (concat ranks) o j * v j)%C) (concat ranks)))).
    + rewrite (fsum_lsum_swap n (fun o j => rscal (/ INR (length (concat ranks))) (conj (dev (concat ranks) o i) * dev (concat ranks) o j * v j)%C)).
      f_equal. apply map_ext. intros o. unfold n_samp. rewrite rscal_mul.
      rewrite (rscal_emb (/ INR (length (concat ranks)))). transitivity (emb (/ INR (length (concat ranks))) * conj (dev (concat ranks) o i) * fsum cC n (fun j => dev (concat ranks) o j * v j))%C; [ring|].
      rewrite <- (fsum_scal cC cC_laws). apply (fsum_ext cC). intros j _. rewrite rscal_emb. ring.
    + apply (fsum_ext cC). intros j _. unfold cov. rewrite cavg_is, rscal_mul.
      rewrite <- (lsum_mul_r (v j)). rewrite rscal_lsum. reflexivity.
Qed.
Lemma cov_mul n samples v i :
  fsum cC n (fun j => (cov samples i j * v j)%C)
  = rscal (/ INR (length samples)) (lsum cC (map (fun o => (conj (dev samples o i) * fsum cC n (fun j => dev samples o j * v j))%C) samples)).
Proof.
  rewrite rscal_lsum.
  transitivity (fsum cC n (fun j => lsum cC (map (fun o => rscal (/ INR (length samples)) (conj (dev samples o i) * dev samples o j * v j)%C) samples))).
  - apply (fsum_ext cC). intros j _. unfold cov. rewrite cavg_is, rscal_mul. rewrite <- (lsum_mul_r (v j)). rewrite rscal_lsum. reflexivity.
  - rewrite (fsum_lsum_swap n (fun o j => rscal (/ INR (length samples)) (conj (dev samples o i) * dev samples o j * v j)%C)).
    f_equal. apply map_ext. intros o. rewrite (rscal_emb (/ INR (length samples))).
    transitivity (emb (/ INR (length samples)) * conj (dev samples o i) * fsum cC n (fun j => dev samples o j * v j))%C; [|ring].
    rewrite <- (fsum_scal cC cC_laws). apply (fsum_ext cC). intros j _. rewrite rscal_emb. ring.
Qed.
Lemma quad_cov n samples v :
  fsum cC n (fun i => (conj (v i) * fsum cC n (fun j => cov samples i j * v j))%C)
  = (average (fun o => cnorm2 (fsum cC n (fun j => dev samples o j * v j)%C)) samples, 0).
Proof.
  set (w := fun o => fsum cC n (fun j => dev samples o j * v j)%C). set (N := / INR (length samples)).
  transitivity (fsum cC n (fun i => lsum cC (map (fun o => rscal N (conj (v i) * conj (dev samples o i) * w o)%C) samples))).
  - apply (fsum_ext cC). intros i _. rewrite cov_mul. fold N w. rewrite rscal_lsum.
    transitivity (lsum cC (map (fun o => (rscal N (conj (dev samples o i) * w o) * conj (v i))%C) samples)); [rewrite lsum_mul_r; apply (Rmul_comm (cr_ring cC cC_laws))|].
    f_equal. apply map_ext. intros o. rewrite rscal_mul. f_equal. ring.
  - rewrite (fsum_lsum_swap n (fun o i => rscal N (conj (v i) * conj (dev samples o i) * w o)%C)).
    transitivity (lsum cC (map (fun o => rscal N (cnorm2 (w o), 0)) samples)).
    + f_equal. apply map_ext. intros o.
      transitivity (emb N * w o * fsum cC n (fun i => conj (v i) * conj (dev samples o i)))%C.
      * rewrite <- (fsum_scal cC cC_laws). apply (fsum_ext cC). intros i _. rewrite rscal_emb. ring.
      * assert (E : fsum cC n (fun i => conj (v i) * conj (dev samples o i))%C = conj (w o)).
        { unfold w. rewrite (conj_fsum cC cC_laws). apply (fsum_ext cC). intros i _. rewrite (cr_conj_mul cC cC_laws). ring. }
        rewrite E, rscal_emb. generalize (w o). intros [w1 w2]. unfold cnorm2. cpx; ring.
    + rewrite <- rscal_lsum. rewrite lsum_pair. unfold rscal, average, Rdiv, N. cbn [fst snd]. f_equal; [apply Rmult_comm|].
      rewrite (rsum_ext (fun _ => 0) (fun a => 0 * 0)) by (intros; ring). rewrite rsum_scal. ring.
Qed.
Lemma average_nonneg {A} (f : A -> R) l : (forall a, 0 <= f a) -> 0 <= average f l.
Proof.
  intros H. unfold average. destruct l as [|a l]; [cbn; unfold Rdiv; lra|].
  apply Rmult_le_pos; [|left; apply Rinv_0_lt_compat, lt_0_INR; cbn; lia].
  induction (a :: l) as [|b m IH]; cbn; [lra|]. specialize (H b). lra.
Qed.
Lemma quad_reg n shift samples v :
  quad n (reg shift samples) v = (average (fun o => cnorm2 (fsum cC n (fun j => dev samples o j * v j)%C)) samples + shift * norm2 n v, 0).
Proof.
  unfold quad.
  transitivity (fsum cC n (fun i => (conj (v i) * fsum cC n (fun j => cov samples i j * v j) + emb (shift * cnorm2 (v i)))%C)).
  - apply (fsum_ext cC). intros i Hi. rewrite (reg_mul n shift samples v i Hi). rewrite (rscal_emb shift).
    generalize (fsum cC n (fun j => (cov samples i j * v j)%C)). intros [a b]. destruct (v i) as [c d]. unfold cnorm2, emb. cpx; ring.
  - rewrite (fsum_add cC cC_laws), quad_cov, <- emb_fsum. unfold norm2.
    assert (E : fsum rR n (fun i => shift * cnorm2 (v i)) = shift * fsum rR n (fun i => cnorm2 (v i))) by exact (fsum_scal rR rR_laws n shift (fun i => cnorm2 (v i))).
    unfold emb. change (fsum rR n (fun i : nat => shift * cnorm2 (v i))) with (fsum rR n (fun i => shift * cnorm2 (v i))). rewrite E. cpx; ring.
Qed.
Lemma reg_positive n shift samples : positive n shift (reg shift samples).
Proof.
  intros v. rewrite quad_reg. cbn [fst].
  pose proof (average_nonneg (fun o => cnorm2 (fsum cC n (fun j => dev samples o j * v j)%C)) samples (fun o => cnorm2_nonneg _)). lra.
Qed.
(** ... and its real part *)
Lemma re_quad n M v : fst (quad n (re_mat M) v) = fst (quad n M (re_vec v)) + fst (quad n M (fun i => (snd (v i), 0))).
Proof.
  unfold quad. rewrite !fst_fsum. rewrite <- (fsum_add rR rR_laws). apply (fsum_ext rR). intros i _.
  assert (F : forall z w : cpx, fst (conj z * w)%C = fst z * fst w + snd z * snd w) by (intros [z1 z2] [w1 w2]; cbn; ring).
  rewrite !F. unfold re_vec at 1. cbn [fst snd]. rewrite !fst_fsum, !snd_fsum.
  change (fst (v i) * fsum rR n (fun j => fst (re_mat M i j * v j)%C) + snd (v i) * fsum rR n (fun j => snd (re_mat M i j * v j)%C)
    = (fst (v i) * fsum rR n (fun j => fst (M i j * re_vec v j)%C) + 0 * fsum rR n (fun j => snd (M i j * re_vec v j)%C))
      + (snd (v i) * fsum rR n (fun j => fst (M i j * (snd (v j), 0%R))%C) + 0 * fsum rR n (fun j => snd (M i j * (snd (v j), 0%R))%C))).
  rewrite (fsum_ext rR n (fun j => fst (re_mat M i j * v j)%C) (fun j => fst (M i j * re_vec v j)%C)) by (intros j _; unfold re_mat, re_vec; cbn; ring).
  rewrite (fsum_ext rR n (fun j => snd (re_mat M i j * v j)%C) (fun j => fst (M i j * (snd (v j), 0%R))%C)) by (intros j _; unfold re_mat; cbn; ring).
  ring.
Qed.
Lemma re_positive n e M : positive n e M -> positive n e (re_mat M).
Proof.
  intros P v. rewrite re_quad. pose proof (P (re_vec v)) as P1. pose proof (P (fun i => (snd (v i), 0))) as P2.
  assert (E : norm2 n v = norm2 n (re_vec v) + norm2 n (fun i => (snd (v i), 0))).
  { unfold norm2. assert (A : forall f g, fsum rR n f + fsum rR n g = fsum rR n (fun i => f i + g i)) by (intros f g; symmetry; exact (fsum_add rR rR_laws n f g)).
    rewrite A. apply (fsum_ext rR). intros i _. unfold re_vec, cnorm2. cbn. ring. }
  rewrite E. lra.
Qed.
