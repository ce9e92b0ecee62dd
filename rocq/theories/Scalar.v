(** * Coefficients of operators

    Matrix elements are numpy floats or complex numbers.  They are modelled by an
    arbitrary structure with exact arithmetic: a commutative ring with a conjugation and
    the threshold tests that the code performs on absolute values.  Rounding errors and
    dtypes are not modelled. *)
From Coq Require Import ZArith List Bool QArith Qcanon Ring Lia.
Import ListNotations.

Record scalars : Type := {
  K : Type;
  k0 : K; k1 : K;
  kadd : K -> K -> K;
  kmul : K -> K -> K;
  ksub : K -> K -> K;
  kopp : K -> K;
  kconj : K -> K;
  (** abs(x) > 1e-6 and abs(x) >= 1e-6: the cutoff set in
      netket/operator/_local_operator.py:257 *)
  kbig : K -> bool;
  kbige : K -> bool;
  (** the element-wise test of np.allclose with the tolerances of
      netket/operator/_local_operator.py:46-47 *)
  kclose : K -> K -> bool
}.

(** Laws used by the proofs. *)
Record scalar_laws (S : scalars) : Prop := {
  k_ring : ring_theory (k0 S) (k1 S) (kadd S) (kmul S) (ksub S) (kopp S) eq;
  k_conj_add : forall a b, kconj S (kadd S a b) = kadd S (kconj S a) (kconj S b);
  k_conj_mul : forall a b, kconj S (kmul S a b) = kmul S (kconj S a) (kconj S b);
  k_conj_conj : forall a, kconj S (kconj S a) = a;
  k_conj_0 : kconj S (k0 S) = k0 S;
  k_conj_1 : kconj S (k1 S) = k1 S;
  k_big_bige : forall a, kbig S a = true -> kbige S a = true;
  k_bige_0 : kbige S (k0 S) = false;
  k_big_conj : forall a, kbig S (kconj S a) = kbig S a;
  k_bige_conj : forall a, kbige S (kconj S a) = kbige S a;
  k_close_refl : forall a, kclose S a a = true
}.

(** ** Gaussian rationals, used for concrete cases and counterexamples *)
Definition GQ : Type := (Qc * Qc)%type.
Definition gq (re im : Qc) : GQ := (re, im).
Definition gq0 : GQ := (0%Qc, 0%Qc).
Definition gq1 : GQ := (1%Qc, 0%Qc).
Definition gqi : GQ := (0%Qc, 1%Qc).
Definition gq_add (a b : GQ) : GQ := (fst a + fst b, snd a + snd b)%Qc.
Definition gq_mul (a b : GQ) : GQ :=
  (fst a * fst b - snd a * snd b, fst a * snd b + snd a * fst b)%Qc.
Definition gq_opp (a : GQ) : GQ := (- fst a, - snd a)%Qc.
Definition gq_sub (a b : GQ) : GQ := (fst a - fst b, snd a - snd b)%Qc.
Definition gq_conj (a : GQ) : GQ := (fst a, - snd a)%Qc.
Definition gq_norm2 (a : GQ) : Qc := (fst a * fst a + snd a * snd a)%Qc.

Definition qc_ltb (a b : Qc) : bool := match (a ?= b)%Qc with Lt => true | _ => false end.
Definition qc_leb (a b : Qc) : bool := match (a ?= b)%Qc with Gt => false | _ => true end.

Definition gq_big (a : GQ) : bool := qc_ltb (Q2Qc (1 # 10 ^ 12)) (gq_norm2 a).
Definition gq_bige (a : GQ) : bool := qc_leb (Q2Qc (1 # 10 ^ 12)) (gq_norm2 a).

(** |a-b| <= 1e-8 + 1e-5 |b|, decided without square roots: with d = |a-b|^2 and
    e = |b|^2 it reads t <= 2e-13 sqrt e, where t = d - 1e-16 - 1e-10 e. *)
Definition gq_close (a b : GQ) : bool :=
  let d := gq_norm2 (gq_sub a b) in
  let e := gq_norm2 b in
  let t := (d - Q2Qc (1 # 10 ^ 16) - Q2Qc (1 # 10 ^ 10) * e)%Qc in
  qc_leb t 0 || qc_leb (t * t) (Q2Qc (4 # 10 ^ 26) * e)%Qc.

Definition gqS : scalars := {|
  K := GQ; k0 := gq0; k1 := gq1; kadd := gq_add; kmul := gq_mul; ksub := gq_sub;
  kopp := gq_opp; kconj := gq_conj; kbig := gq_big; kbige := gq_bige;
  kclose := gq_close |}.

Lemma gq_ring : ring_theory gq0 gq1 gq_add gq_mul gq_sub gq_opp eq.
Proof.
  constructor; intros; unfold gq_add, gq_mul, gq_sub, gq_opp, gq0, gq1;
    repeat match goal with x : GQ |- _ => destruct x end; cbn [fst snd]; f_equal; ring.
Qed.

Lemma qc_sq_nonneg (x : Qc) : (0 <= x * x)%Qc.
Proof.
  destruct (Qclt_le_dec x 0) as [H|H].
  - replace (x * x)%Qc with ((- x) * (- x))%Qc by ring.
    assert (P : (0 <= - x)%Qc).
    { apply Qclt_le_weak in H. apply Qcopp_le_compat in H.
      replace (- 0)%Qc with 0%Qc in H by ring. exact H. }
    replace 0%Qc with (0 * (- x))%Qc by ring. apply Qcmult_le_compat_r; auto.
  - replace 0%Qc with (0 * x)%Qc by ring. apply Qcmult_le_compat_r; auto.
Qed.

Lemma gq_norm2_nonneg (a : GQ) : (0 <= gq_norm2 a)%Qc.
Proof.
  unfold gq_norm2. replace 0%Qc with (0 + 0)%Qc by ring.
  apply Qcplus_le_compat; apply qc_sq_nonneg.
Qed.

Lemma gq_laws : scalar_laws gqS.
Proof.
  constructor; cbn [K k0 k1 kadd kmul ksub kopp kconj kbig kbige kclose gqS].
  - exact gq_ring.
  - intros [a b] [c d]. unfold gq_conj, gq_add. cbn [fst snd]. f_equal; ring.
  - intros [a b] [c d]. unfold gq_conj, gq_mul. cbn [fst snd]. f_equal; ring.
  - intros [a b]. unfold gq_conj. cbn [fst snd]. f_equal; ring.
  - unfold gq_conj, gq0. cbn [fst snd]. f_equal; ring.
  - unfold gq_conj, gq1. cbn [fst snd]. f_equal; ring.
  - intros a. unfold gq_big, gq_bige, qc_ltb, qc_leb. destruct (_ ?= _)%Qc; auto; discriminate.
  - vm_compute. reflexivity.
  - intros [a b]. unfold gq_big, gq_norm2, gq_conj. cbn [fst snd]. f_equal. f_equal. ring.
  - intros [a b]. unfold gq_bige, gq_norm2, gq_conj. cbn [fst snd]. f_equal. f_equal. ring.
  - intros [a b]. unfold gq_close. apply orb_true_intro. left.
    replace (gq_norm2 (gq_sub (a, b) (a, b))) with 0%Qc
      by (unfold gq_norm2, gq_sub; cbn [fst snd]; ring).
    assert (L : (0 - Q2Qc (1 # 10 ^ 16) - Q2Qc (1 # 10 ^ 10) * gq_norm2 (a, b) <= 0)%Qc).
    { assert (P1 : (0 <= Q2Qc (1 # 10 ^ 16))%Qc) by (vm_compute; discriminate).
      assert (P2 : (0 <= Q2Qc (1 # 10 ^ 10) * gq_norm2 (a, b))%Qc).
      { replace 0%Qc with (0 * gq_norm2 (a, b))%Qc by ring.
        apply Qcmult_le_compat_r; [vm_compute; discriminate|apply gq_norm2_nonneg]. }
      pose proof (Qcplus_le_compat _ _ _ _ P1 P2) as P. apply Qcopp_le_compat in P.
      replace (- (0 + 0))%Qc with 0%Qc in P by ring.
      replace (0 - Q2Qc (1 # 10 ^ 16) - Q2Qc (1 # 10 ^ 10) * gq_norm2 (a, b))%Qc with
        (- (Q2Qc (1 # 10 ^ 16) + Q2Qc (1 # 10 ^ 10) * gq_norm2 (a, b)))%Qc by ring. exact P. }
    cbv zeta. apply Qcle_alt in L. unfold qc_leb at 1.
    match goal with |- (match ?c with _ => _ end) = true => destruct c eqn:E; auto end.
Qed.

(** Coefficient domains in which no non-zero number is below the cutoff. *)
Definition no_small (S : scalars) : Prop := forall k, kbig S k = false -> k = k0 S.

(** ** Gaussian integers: such a domain *)
Open Scope Z_scope.
Definition GZ : Type := (Z * Z)%type.
Definition gz_add (a b : GZ) : GZ := (fst a + fst b, snd a + snd b).
Definition gz_mul (a b : GZ) : GZ :=
  (fst a * fst b - snd a * snd b, fst a * snd b + snd a * fst b).
Definition gz_opp (a : GZ) : GZ := (- fst a, - snd a).
Definition gz_sub (a b : GZ) : GZ := (fst a - fst b, snd a - snd b).
Definition gz_conj (a : GZ) : GZ := (fst a, - snd a).
Definition gz_big (a : GZ) : bool := negb ((fst a =? 0) && (snd a =? 0)).
(** |a-b| <= 1e-8 + 1e-5 |b| *)
Definition gz_close (a b : GZ) : bool :=
  let d := (fst a - fst b) * (fst a - fst b) + (snd a - snd b) * (snd a - snd b) in
  let e := fst b * fst b + snd b * snd b in
  let t := d * 10 ^ 16 - 1 - 10 ^ 6 * e in
  (t <=? 0) || (t * t <=? 4 * 10 ^ 6 * e).

Definition gzS : scalars := {|
  K := GZ; k0 := (0, 0); k1 := (1, 0); kadd := gz_add; kmul := gz_mul; ksub := gz_sub;
  kopp := gz_opp; kconj := gz_conj; kbig := gz_big; kbige := gz_big;
  kclose := gz_close |}.

Lemma gz_laws : scalar_laws gzS.
Proof.
  constructor; cbn [K k0 k1 kadd kmul ksub kopp kconj kbig kbige kclose gzS];
    try reflexivity.
  - constructor; intros; unfold gz_add, gz_mul, gz_sub, gz_opp;
      repeat match goal with x : GZ |- _ => destruct x end; cbn [fst snd];
        f_equal; ring.
  - intros [a b] [c d]. unfold gz_conj, gz_add. cbn [fst snd]. f_equal; ring.
  - intros [a b] [c d]. unfold gz_conj, gz_mul. cbn [fst snd]. f_equal; ring.
  - intros [a b]. unfold gz_conj. cbn [fst snd]. f_equal; ring.
  - auto.
  - intros [a b]. unfold gz_big, gz_conj. cbn [fst snd]. do 2 f_equal.
    destruct (Z.eqb_spec b 0), (Z.eqb_spec (-b) 0); auto; lia.
  - intros [a b]. unfold gz_big, gz_conj. cbn [fst snd]. do 2 f_equal.
    destruct (Z.eqb_spec b 0), (Z.eqb_spec (-b) 0); auto; lia.
  - intros [a b]. unfold gz_close. cbn [fst snd]. rewrite !Z.sub_diag.
    apply orb_true_intro. left. apply Z.leb_le.
    change (0 * 0 + 0 * 0) with 0.
    assert (0 <= a * a + b * b) by nia. assert (0 <= 10 ^ 6) by lia. nia.
Qed.

Lemma gz_no_small : no_small gzS.
Proof.
  intros [a b]. cbn. unfold gz_big. cbn [fst snd]. intros H.
  apply negb_false_iff, andb_true_iff in H. destruct H as [H1 H2].
  apply Z.eqb_eq in H1, H2. subst. auto.
Qed.

(** ** Gaussian integers with exact comparison instead of np.allclose *)
Definition gz_eqb (a b : GZ) : bool := (fst a =? fst b) && (snd a =? snd b).
Definition gzxS : scalars := {|
  K := GZ; k0 := (0, 0); k1 := (1, 0); kadd := gz_add; kmul := gz_mul; ksub := gz_sub;
  kopp := gz_opp; kconj := gz_conj; kbig := gz_big; kbige := gz_big;
  kclose := gz_eqb |}.

Lemma gzx_laws : scalar_laws gzxS.
Proof.
  destruct gz_laws. constructor; auto.
  intros [a b]. cbn. unfold gz_eqb. cbn. rewrite !Z.eqb_refl. auto.
Qed.

Lemma gzx_no_small : no_small gzxS.
Proof. exact gz_no_small. Qed.

(** the closeness test of np.allclose is passed by equal numbers only *)
Definition close_exact (S : scalars) : Prop := forall a b, kclose S a b = true -> a = b.

Lemma gzx_close_exact : close_exact gzxS.
Proof.
  intros [a b] [c d]. cbn. unfold gz_eqb. cbn. intros H.
  apply andb_true_iff in H. destruct H as [H1 H2]. apply Z.eqb_eq in H1, H2. subst. auto.
Qed.
