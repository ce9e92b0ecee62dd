From Coq Require Import String List Arith ZArith Lia Bool Reals Lra.
From Verif Require Import Base Rings ARNN_Model ARNN_Proofs ToArray_Model Estim_Model Estim_Spec Estim_Proofs
  Balance_Spec Balance_Proofs LegQsr_Spec LegQsr_Proofs LegQsr_Step LegQsr_Final LegVmc_Model LegVmc_Proofs LegSr_Model LegSr_Spec LegSr_Proofs LegSr_Final
  LegJsr_Model LegJsr_Spec.
Import ListNotations.
Open Scope R_scope.

(** ** sums *)
Lemma keep_add c a b : keep c (a + b)%C = (keep c a + keep c b)%C.
Proof. destruct c; cbn; [reflexivity|f_equal; ring]. Qed.
Lemma keep_0 c : keep c (r0 cC) = r0 cC.
Proof. destruct c; reflexivity. Qed.
Lemma keep_lsum {A} c (f : A -> cpx) l : keep c (lsum cC (map f l)) = lsum cC (map (fun a => keep c (f a)) l).
Proof. induction l as [|a l IH]; [apply keep_0|]. cbn [map lsum]. rewrite keep_add, IH. reflexivity. Qed.
Lemma keep_conj_keep c a : keep c (conj (keep c a)) = keep c (conj a).
Proof. destruct c; reflexivity. Qed.
Lemma conj_lsum {A} (f : A -> cpx) l : conj (lsum cC (map f l)) = lsum cC (map (fun a => conj (f a)) l).
Proof. induction l as [|a l IH]; [cbn; f_equal; ring|]. cbn [map lsum]. rewrite <- IH. cpx; ring. Qed.
Lemma combine_map_l {A B} (f : A -> B) l : combine (map f l) l = map (fun a => (f a, a)) l.
Proof. induction l as [|a l IH]; [reflexivity|]. cbn. rewrite IH. reflexivity. Qed.
Lemma lsum_blocks {A} (F : A -> cpx) ranks : lsum cC (map (fun rows => lsum cC (map F rows)) ranks) = lsum cC (map F (concat ranks)).
Proof. induction ranks as [|r rs IH]; [reflexivity|]. cbn [map concat lsum]. rewrite map_app, (lsum_app cC cC_laws), IH. reflexivity. Qed.
Lemma pull_map cplx rows g k : pull cplx rows (map g rows) k = keep (cplx k) (lsum cC (map (fun o => (g o * o k)%C) rows)).
Proof. unfold pull. rewrite combine_map_l, map_map. reflexivity. Qed.
Lemma conj_cavg f l : conj (cavg f l) = cavg (fun o => conj (f o)) l.
Proof.
  rewrite !cavg_is, <- conj_lsum. unfold rscal. cpx; ring.
Qed.
Lemma cavg_ext f g l : (forall o, In o l -> f o = g o) -> cavg f l = cavg g l.
Proof. intros H. rewrite !cavg_is. f_equal. f_equal. apply map_ext_in, H. Qed.
Lemma cavg_add f g l : cavg (fun o => (f o + g o)%C) l = (cavg f l + cavg g l)%C.
Proof.
  rewrite !cavg_is. assert (E : lsum cC (map (fun o => (f o + g o)%C) l) = (lsum cC (map f l) + lsum cC (map g l))%C).
  { induction l as [|a l IH]; cbn [map lsum]; [ring|]. rewrite IH. ring. }
  rewrite E. unfold rscal. cpx; ring.
Qed.
Lemma cavg_mul_r f c l : cavg (fun o => (f o * c)%C) l = (cavg f l * c)%C.
Proof. rewrite !cavg_is, (lsum_mul_r c), rscal_mul. reflexivity. Qed.
Lemma cavg_const c l : l <> [] -> cavg (fun _ => c) l = c.
Proof.
  intros H. unfold cavg. destruct c as [a b]. assert (E : forall r, average (fun _ : vec => r) l = r).
  { intros r. unfold average. assert (E : rsum (fun _ : vec => r) l = INR (length l) * r).
    { clear H. induction l as [|x l IH]; [cbn; ring|]. change (rsum (fun _ => r) (x :: l)) with (r + rsum (fun _ => r) l). rewrite IH. change (length (x :: l)) with (S (length l)). rewrite S_INR. ring. }
    rewrite E. field. apply not_0_INR. destruct l; [congruence|discriminate]. }
  cbn [fst snd]. rewrite !E. reflexivity.
Qed.
Lemma cavg_fsum n (g : vec -> nat -> cpx) l : cavg (fun o => fsum cC n (g o)) l = fsum cC n (fun j => cavg (fun o => g o j) l).
Proof.
  induction n as [|n IH].
  - cbn [fsum]. rewrite cavg_is. assert (E : lsum cC (map (fun _ : vec => r0 cC) l) = r0 cC) by (induction l as [|a l H]; [reflexivity|cbn [map lsum]; rewrite H; ring]).
    rewrite E. unfold rscal. cpx; ring.
  - rewrite fsum_S, <- IH, <- cavg_add. apply cavg_ext. intros o _. apply fsum_S.
Qed.

Section Bal.
  Variables (n : nat) (t : nat) (ranks : list (list vec)).
  Hypothesis B : balanced t ranks.
  Notation all := (concat ranks).
  Notation N := (/ INR (length all)).

  Lemma all_nonempty : all <> [].
  Proof.
    destruct B as (Ht & Hne & F). destruct ranks as [|r rs]; [congruence|]. inversion F as [|x y Hr Hrs]; subst. cbn [concat].
    destruct r; [cbn in Ht; lia|discriminate].
  Qed.
  Lemma share_all rows : In rows ranks -> share ranks rows = N.
  Proof.
    intros Hin. destruct B as (_ & _ & F). unfold share. f_equal. f_equal.
    assert (L : forall rs, Forall (fun r : list vec => length r = t) rs -> length (concat rs) = (t * length rs)%nat).
    { induction rs as [|r rs IH]; intros Hf; [cbn; lia|]. inversion Hf as [|x y Hr Hrs]; subst x y. cbn [concat length]. rewrite app_length, (IH Hrs), Hr. lia. }
    rewrite (L ranks F). f_equal. rewrite Forall_forall in F. apply F, Hin.
  Qed.
  (** a mean taken rank by rank *)
  Lemma share_sum F : lsum cC (map (fun rows => rscal (share ranks rows) (lsum cC (map F rows))) ranks) = cavg F all.
  Proof.
    rewrite cavg_is, <- lsum_blocks, rscal_lsum. f_equal. apply map_ext_in. intros rows Hin. rewrite (share_all rows Hin). reflexivity.
  Qed.

  (** ** the stored derivatives *)
  Lemma s_grad_mul_cov v i : s_grad_mul n ranks (centered_oks ranks) v i = fsum cC n (fun j => (cov all i j * v j)%C).
  Proof.
    rewrite cov_mul, rscal_lsum. unfold s_grad_mul, centered_oks. rewrite map_map.
    rewrite <- lsum_blocks. f_equal. apply map_ext_in. intros rows Hin. rewrite map_map. f_equal. apply map_ext. intros o.
    assert (D : forall k, (o k - lsum cC (map (fun rows0 => rscal (share ranks rows0) (lsum cC (map (fun o0 : vec => o0 k) rows0))) ranks))%C = dev all o k).
    { intros k. unfold dev. f_equal. apply (share_sum (fun o => o k)). }
    rewrite D. unfold share at 1. rewrite map_length. change (/ INR (length rows * length ranks)) with (share ranks rows). rewrite (share_all rows Hin).
    rewrite (fsum_ext cC n _ (fun j => (dev all o j * v j)%C)) by (intros j _; rewrite D; reflexivity).
    rewrite !rscal_emb. ring.
  Qed.
  Lemma matvec_cmplx_is shift v i : (i < n)%nat ->
    matvec_cmplx n shift ranks v i = fsum cC n (fun j => (reg shift all i j * v j)%C).
  Proof. intros Hi. rewrite (reg_mul n shift all v i Hi). unfold matvec_cmplx. rewrite s_grad_mul_cov. ring. Qed.
  Lemma matvec_real_is shift v i : real_vec n v -> (i < n)%nat ->
    matvec_real n shift ranks v i = fsum cC n (fun j => (re_mat (reg shift all) i j * v j)%C).
  Proof.
    intros Hv Hi. unfold matvec_real, keep. rewrite (matvec_cmplx_is shift v i Hi).
    apply injective_projections; cbn [fst snd]; [rewrite !fst_fsum|rewrite snd_fsum].
    - apply (fsum_ext rR). intros j Hj. unfold re_mat. cbn. rewrite (Hv j Hj). ring.
    - symmetry. apply (fsum_zero rR rR_laws). intros j Hj. unfold re_mat. cbn. rewrite (Hv j Hj). ring.
  Qed.

  (** ** on the fly *)
  Variable cplx : nat -> bool.
  Definition gap (v : vec) : cpx := fsum cC n (fun l => ((if cplx l then r0 cC else (0, snd (mean_of all l))) * v l)%C).
  Lemma omeanv_is v : lsum cC (map (fun rows => tree_dot n (o_mean cplx ranks rows) v) ranks) = fsum cC n (fun l => (keep (cplx l) (mean_of all l) * v l)%C).
  Proof.
    unfold tree_dot. rewrite <- (fsum_lsum_swap n (fun rows l => (o_mean cplx ranks rows l * v l)%C)).
    apply (fsum_ext cC). intros l _. rewrite (lsum_mul_r (v l)). f_equal.
    unfold mean_of. rewrite <- (share_sum (fun o => o l)), keep_lsum. f_equal. apply map_ext. intros rows. unfold o_mean. rewrite pull_map. f_equal.
    rewrite rscal_lsum. f_equal. apply map_ext. intros o. rewrite rscal_emb. reflexivity.
  Qed.
  Lemma gap_is v : gap v = (fsum cC n (fun l => (mean_of all l * v l)%C) - fsum cC n (fun l => (keep (cplx l) (mean_of all l) * v l)%C))%C.
  Proof.
    rewrite <- (fsum_sub cC cC_laws). unfold gap. apply (fsum_ext cC). intros l _. unfold keep. destruct (cplx l); [ring|]. cpx; ring.
  Qed.
  Lemma odagger_is v k :
    odagger_deltao_v n cplx ranks v k = keep (cplx k) (cavg (fun o => (conj (o k) * (fsum cC n (fun l => o l * v l) - fsum cC n (fun l => keep (cplx l) (mean_of all l) * v l)))%C) all).
  Proof.
    unfold odagger_deltao_v, oh_w. rewrite omeanv_is. rewrite combine_map_l, map_map. cbn [fst snd].
    set (q := fsum cC n (fun l => (keep (cplx l) (mean_of all l) * v l)%C)).
    rewrite conj_lsum, keep_lsum, <- (share_sum (fun o => (conj (o k) * (fsum cC n (fun l => o l * v l) - q))%C)), keep_lsum. f_equal. apply map_ext. intros rows.
    unfold o_jvp. rewrite !map_map. rewrite pull_map, keep_conj_keep, conj_lsum, rscal_lsum. f_equal. f_equal. apply map_ext. intros o.
    rewrite (cr_conj_mul cC cC_laws), (cr_conj_conj cC cC_laws). rewrite !rscal_emb. ring.
  Qed.
  Lemma raw_cov v k : cavg (fun o => (conj (o k) * (fsum cC n (fun l => o l * v l) - fsum cC n (fun l => mean_of all l * v l)))%C) all
    = fsum cC n (fun j => (cov all k j * v j)%C).
  Proof.
    rewrite cov_mul, <- cavg_is.
    assert (D : forall o : vec, fsum cC n (fun j => (dev all o j * v j)%C) = (fsum cC n (fun l => (o l * v l)%C) - fsum cC n (fun l => (mean_of all l * v l)%C))%C).
    { intros o. rewrite <- (fsum_sub cC cC_laws). apply (fsum_ext cC). intros j _. unfold dev, mean_of. ring. }
    set (X := fun o : vec => fsum cC n (fun l => (o l * v l)%C)). set (mu := fsum cC n (fun l => (mean_of all l * v l)%C)).
    assert (M0 : cavg (fun o => (X o - mu)%C) all = r0 cC).
    { transitivity (cavg (fun o => (X o + (r0 cC - mu))%C) all); [apply cavg_ext; intros o _; ring|]. rewrite cavg_add, (cavg_const _ _ all_nonempty).
      assert (E : cavg X all = mu).
      { unfold X, mu. rewrite (cavg_fsum n (fun (o : vec) l => (o l * v l)%C)). apply (fsum_ext cC). intros l _. apply cavg_mul_r. }
      rewrite E. ring. }
    transitivity (cavg (fun o => (conj (dev all o k) * (X o - mu) + (X o - mu) * conj (mean_of all k))%C) all).
    - apply cavg_ext. intros o _. assert (E : conj (o k) = (conj (dev all o k) + conj (mean_of all k))%C).
      { unfold dev, mean_of. cpx; ring. }
      change (conj (o k) * (X o - mu) = conj (dev all o k) * (X o - mu) + (X o - mu) * conj (mean_of all k))%C. rewrite E. ring.
    - rewrite cavg_add, cavg_mul_r, M0. transitivity (cavg (fun o => (conj (dev all o k) * (X o - mu))%C) all); [ring|].
      apply cavg_ext. intros o _. rewrite D. reflexivity.
  Qed.
  Lemma mat_vec_is shift v k :
    mat_vec n cplx shift ranks v k = (rscal shift (v k) + keep (cplx k) (fsum cC n (fun j => cov all k j * v j) + conj (mean_of all k) * gap v))%C.
  Proof.
    unfold mat_vec. f_equal. rewrite odagger_is. f_equal. rewrite <- raw_cov, gap_is.
    set (q := fsum cC n (fun l => (keep (cplx l) (mean_of all l) * v l)%C)). set (mu := fsum cC n (fun l => (mean_of all l * v l)%C)).
    transitivity (cavg (fun o => (conj (o k) * (fsum cC n (fun l => o l * v l) - mu) + conj (o k) * (mu - q))%C) all).
    - apply cavg_ext. intros o _. ring.
    - rewrite cavg_add, cavg_mul_r. f_equal. f_equal. unfold mean_of. symmetry. apply conj_cavg.
  Qed.
  Lemma typed_product shift v k : typed n cplx v -> (k < n)%nat ->
    mat_vec n cplx shift ranks v k = (shifted_product n cplx shift all v k + keep (cplx k) (conj (mean_of all k) * gap v))%C.
  Proof.
    intros Hv Hk. rewrite mat_vec_is. rewrite keep_add. unfold shifted_product.
    set (y := fsum cC n (fun j => (cov all k j * v j)%C)). set (g := (conj (mean_of all k) * gap v)%C).
    change (if cplx k then (y + rscal shift (v k))%C else (fst (y + rscal shift (v k))%C, 0)) with (keep (cplx k) (y + rscal shift (v k))%C). rewrite keep_add.
    assert (E : keep (cplx k) (rscal shift (v k)) = rscal shift (v k)).
    { unfold keep. destruct (cplx k) eqn:Ec; [reflexivity|]. unfold rscal. cbn [fst]. rewrite (Hv k Hk Ec), Rmult_0_r. reflexivity. }
    rewrite E. ring.
  Qed.
  Theorem onthefly_iff shift :
    (forall v, typed n cplx v -> forall k, (k < n)%nat -> mat_vec n cplx shift ranks v k = shifted_product n cplx shift all v k)
    <-> (forall l, (l < n)%nat -> cplx l = false -> snd (mean_of all l) = 0).
  Proof.
    split.
    - intros H l Hl Hc. set (v := fun k : nat => if (k =? l)%nat then r1 cC else r0 cC).
      assert (Tv : typed n cplx v) by (intros k _ _; unfold v; destruct (k =? l)%nat; reflexivity).
      pose proof (H v Tv l Hl) as E. rewrite (typed_product shift v l Tv Hl) in E.
      assert (G : gap v = (0, snd (mean_of all l))).
      { unfold gap. rewrite (fsum_ext cC n _ (fun k => if (k =? l)%nat then (0, snd (mean_of all l)) else r0 cC)).
        - apply (fsum_delta cC cC_laws n (fun _ => (0, snd (mean_of all l))) l Hl).
        - intros k _. unfold v. destruct (Nat.eqb_spec k l) as [->|]; [rewrite Hc|]; cpx; ring. }
      rewrite G, Hc in E. unfold keep in E. apply (f_equal fst) in E. cbn [radd cC fst snd rmul rconj] in E.
      assert (Z : snd (mean_of all l) * snd (mean_of all l) = 0) by lra. destruct (Rmult_integral _ _ Z); assumption.
    - intros H v Hv k Hk. rewrite (typed_product shift v k Hv Hk).
      assert (G : gap v = r0 cC).
      { unfold gap. apply (fsum_zero cC cC_laws). intros l Hl. destruct (cplx l) eqn:E; [ring|]. rewrite (H l Hl E). cpx; ring. }
      rewrite G. transitivity (shifted_product n cplx shift all v k + keep (cplx k) (r0 cC))%C; [f_equal; f_equal; ring|]. rewrite keep_0. ring.
  Qed.
End Bal.
