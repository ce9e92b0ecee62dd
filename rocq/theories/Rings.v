(** * Exact numbers with a conjugation, and finite sums

    Floating-point numbers are modelled by the elements of an arbitrary commutative ring
    with a conjugation (real or complex numbers with exact arithmetic); rounding,
    infinities and nan are left out.  Nothing in this file is specific to NetKet. *)
From Coq Require Import List Arith ZArith Lia Ring Permutation.
Import ListNotations.

Record cring : Type := CRing {
  T : Type;
  r0 : T; r1 : T;
  radd : T -> T -> T;
  rmul : T -> T -> T;
  rsub : T -> T -> T;
  ropp : T -> T;
  rconj : T -> T
}.

Record cring_laws (C : cring) : Prop := {
  cr_ring : ring_theory (r0 C) (r1 C) (radd C) (rmul C) (rsub C) (ropp C) eq;
  cr_conj_add : forall a b, rconj C (radd C a b) = radd C (rconj C a) (rconj C b);
  cr_conj_mul : forall a b, rconj C (rmul C a b) = rmul C (rconj C a) (rconj C b);
  cr_conj_conj : forall a, rconj C (rconj C a) = a
}.

(** The integers and the Gaussian integers, for concrete cases. *)
Definition zC : cring := CRing Z 0%Z 1%Z Z.add Z.mul Z.sub Z.opp (fun z => z).
Lemma zC_laws : cring_laws zC.
Proof. constructor; cbn; intros; auto. exact (Zth). Qed.

Definition giC : cring := CRing (Z * Z) (0, 0)%Z (1, 0)%Z
  (fun a b => (fst a + fst b, snd a + snd b)%Z)
  (fun a b => (fst a * fst b - snd a * snd b, fst a * snd b + snd a * fst b)%Z)
  (fun a b => (fst a - fst b, snd a - snd b)%Z)
  (fun a => (- fst a, - snd a)%Z) (fun a => (fst a, - snd a)%Z).
Lemma giC_laws : cring_laws giC.
Proof.
  constructor; cbn [giC T r0 r1 radd rmul rsub ropp rconj]; intros;
    [constructor; intros|..]; apply injective_projections; cbn [fst snd]; ring.
Qed.

Section Sums.
  Variable C : cring.
  Notation "0" := (r0 C).
  Notation "1" := (r1 C).
  Infix "+" := (radd C).
  Infix "*" := (rmul C).

  (** f 0 + ... + f (n-1) *)
  Fixpoint fsum (n : nat) (f : nat -> T C) : T C :=
    match n with O => 0 | S n => fsum n f + f n end.

  (** sum of a list *)
  Fixpoint lsum (l : list (T C)) : T C := match l with [] => 0 | x :: l => x + lsum l end.

  Lemma fsum_ext n f g : (forall i, i < n -> f i = g i) -> fsum n f = fsum n g.
  Proof. induction n; intros H; cbn [fsum]; [reflexivity|]. rewrite IHn by auto. f_equal. auto. Qed.

  Hypothesis L : cring_laws C.
  Add Ring Cring : (cr_ring C L).

  Lemma fsum_zero n f : (forall i, i < n -> f i = 0) -> fsum n f = 0.
  Proof. induction n; intros H; cbn [fsum]; [reflexivity|]. rewrite IHn, H by auto. ring. Qed.
  Lemma fsum_add n f g : fsum n (fun i => f i + g i) = fsum n f + fsum n g.
  Proof. induction n; cbn [fsum]; [ring|]. rewrite IHn. ring. Qed.
  Lemma fsum_sub n f g : fsum n (fun i => rsub C (f i) (g i)) = rsub C (fsum n f) (fsum n g).
  Proof. induction n; cbn [fsum]; [ring|]. rewrite IHn. ring. Qed.
  Lemma fsum_scal n c f : fsum n (fun i => c * f i) = c * fsum n f.
  Proof. induction n; cbn [fsum]; [ring|]. rewrite IHn. ring. Qed.
  Lemma fsum_scal_r n c f : fsum n (fun i => f i * c) = fsum n f * c.
  Proof. induction n; cbn [fsum]; [ring|]. rewrite IHn. ring. Qed.
  Lemma fsum_swap n m f : fsum n (fun i => fsum m (f i)) = fsum m (fun j => fsum n (fun i => f i j)).
  Proof.
    induction n; cbn [fsum].
    - symmetry. apply fsum_zero. reflexivity.
    - rewrite IHn, <- fsum_add. reflexivity.
  Qed.
  Lemma fsum_app n m f : fsum (n + m) f = fsum n f + fsum m (fun i => f (n + i)%nat).
  Proof.
    induction m; cbn [fsum].
    - rewrite Nat.add_0_r. ring.
    - rewrite Nat.add_succ_r. cbn [fsum]. rewrite IHm. ring.
  Qed.
  Lemma fsum_delta n f k : k < n -> fsum n (fun i => if i =? k then f i else 0) = f k.
  Proof.
    intros H. induction n; [lia|]. cbn [fsum]. destruct (Nat.eqb_spec n k) as [->|E].
    - rewrite fsum_zero; [ring|]. intros i Hi. destruct (Nat.eqb_spec i k); [lia|reflexivity].
    - rewrite IHn by lia. ring.
  Qed.
  Lemma fsum_flat n m f :
    fsum (n * m) (fun p => f (p / m) (p mod m)) = fsum n (fun i => fsum m (f i)).
  Proof.
    destruct m as [|m]; [rewrite Nat.mul_0_r; cbn [fsum]; rewrite fsum_zero; reflexivity|].
    induction n; [reflexivity|]. cbn [Nat.mul]. rewrite Nat.add_comm, fsum_app, IHn.
    change (fsum (S n) (fun i => fsum (S m) (f i)))
      with (fsum n (fun i => fsum (S m) (f i)) + fsum (S m) (f n)).
    apply f_equal2; [reflexivity|]. apply fsum_ext. intros i Hi.
    assert (E : ((n * S m + i) / S m = n)%nat).
    { rewrite Nat.div_add_l by lia. rewrite Nat.div_small by lia. lia. }
    assert (E' : ((n * S m + i) mod S m = i)%nat).
    { rewrite Nat.add_comm, Nat.mod_add by lia. apply Nat.mod_small. lia. }
    rewrite E, E'. reflexivity.
  Qed.

  Lemma lsum_perm l l' : Permutation l l' -> lsum l = lsum l'.
  Proof. induction 1; cbn [lsum]; [reflexivity|congruence|ring|congruence]. Qed.
  Lemma lsum_app l l' : lsum (l ++ l') = lsum l + lsum l'.
  Proof. induction l; cbn [lsum app]; [ring|]. rewrite IHl. ring. Qed.
  Lemma fsum_lsum n f : fsum n f = lsum (map f (seq 0 n)).
  Proof.
    induction n; [reflexivity|]. rewrite seq_S, map_app, lsum_app. cbn [fsum map lsum].
    rewrite IHn. rewrite Nat.add_0_l. ring.
  Qed.

  Lemma perm_seq n p : (forall i, i < n -> p i < n) -> (forall i j, i < n -> j < n -> p i = p j -> i = j) ->
    Permutation (map p (seq 0 n)) (seq 0 n).
  Proof.
    intros Hr Hi. apply NoDup_Permutation_bis.
    - assert (G : forall l, NoDup l -> Forall (fun i => i < n) l -> NoDup (map p l)).
      { induction l as [|x l IH]; intros Hn Hf; cbn; [constructor|].
        apply NoDup_cons_iff in Hn. apply Forall_cons_iff in Hf. destruct Hn as [Hx Hn], Hf as [Fx Hf].
        constructor; [|apply IH; assumption]. intros Hin. apply in_map_iff in Hin.
        destruct Hin as [y [E Hy]]. rewrite Forall_forall in Hf. apply Hi in E; auto. subst. auto. }
      apply G; [apply seq_NoDup|]. apply Forall_forall. intros i Hin. apply in_seq in Hin. lia.
    - rewrite map_length. lia.
    - intros x Hx. apply in_map_iff in Hx. destruct Hx as [i [<- Hin]]. apply in_seq in Hin.
      apply in_seq. specialize (Hr i). lia.
  Qed.

  Lemma fsum_perm n p f : (forall i, i < n -> p i < n) ->
    (forall i j, i < n -> j < n -> p i = p j -> i = j) -> fsum n (fun i => f (p i)) = fsum n f.
  Proof.
    intros Hr Hi. rewrite !fsum_lsum. rewrite <- (map_map p f). apply lsum_perm.
    apply Permutation_map. apply perm_seq; assumption.
  Qed.

  Lemma conj_0 : rconj C 0 = 0.
  Proof.
    assert (E : rconj C 0 = rconj C 0 + rconj C 0).
    { rewrite <- (cr_conj_add C L). f_equal. ring. }
    transitivity (rsub C (rconj C 0 + rconj C 0) (rconj C 0)); [ring|]. rewrite <- E. ring.
  Qed.
  Lemma conj_1 : rconj C 1 = 1.
  Proof.
    rewrite <- (cr_conj_conj C L 1) at 2. transitivity (rconj C (rconj C 1 * 1)).
    - rewrite (cr_conj_mul C L), (cr_conj_conj C L). ring.
    - f_equal. ring.
  Qed.
  Lemma conj_sub a b : rconj C (rsub C a b) = rsub C (rconj C a) (rconj C b).
  Proof.
    assert (E : rconj C a = rconj C (rsub C a b) + rconj C b).
    { rewrite <- (cr_conj_add C L). f_equal. ring. }
    rewrite E. ring.
  Qed.
  Lemma conj_fsum n f : rconj C (fsum n f) = fsum n (fun i => rconj C (f i)).
  Proof. induction n; cbn [fsum]; [apply conj_0|]. rewrite (cr_conj_add C L), IHn. reflexivity. Qed.
End Sums.
