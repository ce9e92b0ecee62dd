(** * Proofs about distributed statistics *)
From Coq Require Import List ZArith QArith Qcanon Lia.
From Verif Require Import MpiStats_Model MpiStats_Spec.
Import ListNotations.
Open Scope Qc_scope.

Lemma nQc_add a b : nQc (a + b) = nQc a + nQc b.
Proof. unfold nQc. rewrite Nat2Z.inj_add, inject_Z_plus. apply Qc_is_canon. cbn [this Q2Qc Qcplus]. rewrite !Qred_correct. reflexivity. Qed.
Lemma nQc_mul a b : nQc (a * b) = nQc a * nQc b.
Proof. unfold nQc. rewrite Nat2Z.inj_mul, inject_Z_mult. apply Qc_is_canon. cbn [this Q2Qc Qcmult]. rewrite !Qred_correct. reflexivity. Qed.
Lemma nQc_ne n : (0 < n)%nat -> nQc n <> 0.
Proof.
  intros Hn E. unfold nQc in E. apply (f_equal this) in E. cbn [this Q2Qc] in E.
  assert (H : (inject_Z (Z.of_nat n) == 0)%Q) by (rewrite <- Qred_correct, E; reflexivity).
  unfold inject_Z, Qeq in H. cbn in H. lia.
Qed.
Lemma nQc_le a b : (a <= b)%nat -> nQc a <= nQc b.
Proof.
  intros H. unfold nQc, Qcle. cbn [this Q2Qc]. rewrite !Qred_correct. rewrite <- Zle_Qle. lia.
Qed.

Lemma cadd_assoc a b c : cadd a (cadd b c) = cadd (cadd a b) c.
Proof. unfold cadd. cbn. f_equal; ring. Qed.
Lemma cadd_0_l a : cadd c0 a = a.
Proof. destruct a. unfold cadd, c0. cbn. f_equal; ring. Qed.
Lemma csum_app a b : csum (a ++ b) = cadd (csum a) (csum b).
Proof. induction a as [|x a IH]; cbn [app csum]; [rewrite cadd_0_l; reflexivity|]. rewrite IH, cadd_assoc. reflexivity. Qed.
Lemma qsum_app a b : qsum (a ++ b) = qsum a + qsum b.
Proof. induction a as [|x a IH]; cbn [app qsum]; [ring|]. rewrite IH. ring. Qed.
Lemma csum_concat l : csum (concat l) = csum (map csum l).
Proof. induction l as [|a l IH]; [reflexivity|]. cbn [concat map csum]. rewrite csum_app, IH. reflexivity. Qed.
Lemma qsum_concat l : qsum (concat l) = qsum (map qsum l).
Proof. induction l as [|a l IH]; [reflexivity|]. cbn [concat map qsum]. rewrite qsum_app, IH. reflexivity. Qed.

Lemma cdivr_add a b q : q <> 0 -> cadd (cdivr a q) (cdivr b q) = cdivr (cadd a b) q.
Proof. intros Hq. unfold cadd, cdivr. cbn. f_equal; field; exact Hq. Qed.

Lemma length_concat k (l : list (list cplx)) : Forall (fun a => length a = k) l ->
  length (concat l) = (k * length l)%nat.
Proof.
  induction 1 as [|a l Ha Hl IH]; cbn [concat length]; [lia|]. rewrite app_length, IH. lia.
Qed.

Lemma mean_main k ranks : equal_split k ranks -> mean ranks = gmean (concat ranks).
Proof.
  intros [Hk [Hne Hf]]. unfold mean, mpi_mean, mpi_sum, gmean.
  rewrite (length_concat k) by exact Hf. rewrite map_length, csum_concat.
  assert (E : csum (map local_mean ranks) = cdivr (csum (map csum ranks)) (nQc k)).
  { clear Hne. induction Hf as [|a l Ha Hl IH]; cbn [map csum].
    - unfold cdivr, c0. cbn. f_equal; field; apply nQc_ne, Hk.
    - rewrite IH. unfold local_mean. rewrite Ha. apply cdivr_add, nQc_ne, Hk. }
  rewrite E. rewrite nQc_mul. unfold cdivr. cbn [fst snd].
  assert (Hl : nQc (length ranks) <> 0) by (apply nQc_ne; destruct ranks; [congruence|cbn; lia]).
  pose proof (nQc_ne k Hk). f_equal; field; split; assumption.
Qed.

Lemma var_main k ranks ddof a : equal_split k ranks -> In a ranks ->
  var ddof ranks a = gvar ddof (concat ranks).
Proof.
  intros H Ha. pose proof H as [Hk [Hne Hf]]. unfold var, gvar. rewrite (mean_main k) by exact H.
  unfold total_size, sum_real. rewrite Forall_forall in Hf. rewrite (Hf a Ha).
  rewrite (length_concat k) by (apply Forall_forall; exact Hf). f_equal.
  rewrite <- qsum_concat, concat_map. reflexivity.
Qed.

Lemma csum_sub m l : csum (map (fun x => csub x m) l) =
  csub (csum l) (fst m * nQc (length l), snd m * nQc (length l)).
Proof.
  induction l as [|x l IH].
  - cbn [map csum length]. unfold csub, c0. cbn [fst snd]. change (nQc 0) with 0. f_equal; ring.
  - cbn [map csum length]. rewrite IH. change (S (length l)) with (1 + length l)%nat. rewrite nQc_add.
    change (nQc 1) with 1. unfold cadd, csub. cbn [fst snd]. f_equal; ring.
Qed.

Lemma subtract_main k ranks : equal_split k ranks ->
  concat (subtract_mean ranks) = map (fun x => csub x (gmean (concat ranks))) (concat ranks) /\
  mean (subtract_mean ranks) = c0.
Proof.
  intros H. pose proof H as [Hk [Hne Hf]].
  assert (E : concat (subtract_mean ranks) = map (fun x => csub x (gmean (concat ranks))) (concat ranks)).
  { unfold subtract_mean. rewrite (mean_main k) by exact H. symmetry. apply concat_map. }
  split; [exact E|].
  assert (H' : equal_split k (subtract_mean ranks)).
  { split; [exact Hk|]. split.
    - unfold subtract_mean. destruct ranks; [congruence|discriminate].
    - unfold subtract_mean. apply Forall_map. apply Forall_forall. intros a Ha. rewrite map_length.
      rewrite Forall_forall in Hf. apply Hf, Ha. }
  rewrite (mean_main k) by exact H'. unfold gmean at 1. rewrite E, csum_sub, map_length.
  rewrite (length_concat k) by exact Hf.
  assert (Hl : (0 < k * length ranks)%nat) by (destruct ranks; [congruence|cbn; nia]).
  unfold gmean. rewrite (length_concat k) by exact Hf. unfold cdivr, csub, c0. cbn [fst snd].
  pose proof (nQc_ne _ Hl). f_equal; field; assumption.
Qed.

Lemma sq_nonneg (x : Qc) : 0 <= x * x.
Proof.
  unfold Qcle. cbn [this Qcmult Q2Qc]. rewrite !Qred_correct. 
  destruct (Qlt_le_dec x 0) as [H|H].
  - setoid_replace (x * x)%Q with ((- x) * (- x))%Q by ring. apply Qlt_le_weak in H; apply Qopp_le_compat in H; apply Qmult_le_0_compat; exact H.
  - apply Qmult_le_0_compat; exact H.
Qed.

Lemma Qc_add_nonneg (x y : Qc) : 0 <= x -> 0 <= y -> 0 <= x + y.
Proof. intros Hx Hy. replace 0 with (0 + 0) by ring. apply Qcplus_le_compat; assumption. Qed.

Lemma var_nonneg_main k ranks ddof a : equal_split k ranks -> In a ranks ->
  (ddof < k * length ranks)%nat -> 0 <= var ddof ranks a.
Proof.
  intros H Ha Hd. pose proof H as [Hk [Hne Hf]]. rewrite (var_main k) by assumption. unfold gvar.
  rewrite (length_concat k) by exact Hf.
  set (num := qsum _). assert (Hnum : 0 <= num).
  { unfold num. induction (concat ranks) as [|x l IH] in |- * at 2; cbn [map qsum].
    - apply Qcle_refl.
    - apply Qc_add_nonneg; [|exact IH]. unfold cabs2. apply Qc_add_nonneg; apply sq_nonneg. }
  set (den := nQc (k * length ranks) - nQc ddof).
  assert (Hden : 0 < den).
  { unfold den. replace (k * length ranks)%nat with (ddof + (k * length ranks - ddof))%nat by lia.
    rewrite nQc_add. replace (nQc ddof + nQc (k * length ranks - ddof) - nQc ddof) with (nQc (k * length ranks - ddof)) by ring.
    assert (Hp : (0 < k * length ranks - ddof)%nat) by lia.
    destruct (Qcle_lt_or_eq 0 (nQc (k * length ranks - ddof))) as [L|L].
    - apply (nQc_le 0). lia.
    - exact L.
    - exfalso. apply (nQc_ne _ Hp). symmetry. exact L. }
  unfold Qcdiv. replace 0 with (0 * / den) by ring. apply Qcmult_le_compat_r; [exact Hnum|].
  assert (Hi : 0 <= / den).
  { unfold Qcle. change (this (/ den)) with (Qred (/ this den)). rewrite Qred_correct. apply Qinv_le_0_compat. apply Qlt_le_weak. exact Hden. }
  exact Hi.
Qed.
