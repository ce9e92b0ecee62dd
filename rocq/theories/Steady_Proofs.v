From Coq Require Import String List Arith Lia Ring ZArith Reals Psatz.
From Verif Require Import Base Rings ARNN_Model ARNN_Proofs Steady_Model Steady_Spec.
Import ListNotations.
Open Scope nat_scope.

Section P.
  Variable C : cring.
  Variable CL : cring_laws C.
  Notation "0" := (r0 C).
  Notation "1" := (r1 C).
  Infix "+" := (radd C).
  Infix "*" := (rmul C).
  Add Ring Cring : (cr_ring C CL).
  Notation mat := (nat -> nat -> T C).
  Notation vec := (nat -> T C).

  Lemma fsum_unscal n (f : nat -> T C) (c : T C) : fsum C n f * c = fsum C n (fun i => f i * c).
  Proof. symmetry. apply (fsum_scal_r C CL). Qed.
  Lemma fsum_unscal_l n (f : nat -> T C) (c : T C) : c * fsum C n f = fsum C n (fun i => c * f i).
  Proof. symmetry. apply (fsum_scal C CL). Qed.

  Lemma kernel_main n (L : mat) (v : vec) : definite C -> kernel C n (ldagl C n true L) v <-> kernel C n L v.
  Proof.
    intros Hd. split; intros H.
    - unfold kernel. apply Hd.
      (* <Lv, Lv> = <v, LdagL v> = 0 *)
      transitivity (fsum C n (fun i => rconj C (v i) * fsum C n (fun j => ldagl C n true L i j * v j))).
      + transitivity (fsum C n (fun i => fsum C n (fun k => fsum C n (fun j => rconj C (v k) * (rconj C (L i k) * (L i j * v j)))))).
        * apply fsum_ext. intros i Hi. rewrite (conj_fsum C CL), fsum_unscal. apply fsum_ext. intros k Hk.
          rewrite (cr_conj_mul C CL). rewrite fsum_unscal_l. apply fsum_ext. intros j Hj. ring.
        * rewrite (fsum_swap C CL). apply fsum_ext. intros k Hk. rewrite fsum_unscal_l.
          rewrite (fsum_swap C CL). apply fsum_ext. intros j Hj. cbn [ldagl mmul dagger]. unfold mmul, dagger.
          rewrite fsum_unscal, fsum_unscal_l. apply fsum_ext. intros i Hi. ring.
      + apply (fsum_zero C CL). intros i Hi. rewrite (H i Hi). ring.
    - intros i Hi. transitivity (fsum C n (fun k => rconj C (L k i) * fsum C n (fun j => L k j * v j))).
      + transitivity (fsum C n (fun j => fsum C n (fun k => rconj C (L k i) * (L k j * v j)))).
        * apply fsum_ext. intros j Hj. cbn [ldagl]. unfold mmul, dagger. rewrite fsum_unscal. apply fsum_ext. intros k Hk. ring.
        * rewrite (fsum_swap C CL). apply fsum_ext. intros k Hk. rewrite fsum_unscal_l. reflexivity.
      + apply (fsum_zero C CL). intros k Hk. rewrite (H k Hk). ring.
  Qed.

  Lemma flat_index M i : i < Nat.mul M M -> i = Nat.add (Nat.mul (i / M) M) (i mod M) /\ i / M < M /\ i mod M < M.
  Proof.
    intros H. assert (M <> 0%nat) by (intros ->; lia). split; [rewrite Nat.mul_comm; apply Nat.div_mod; lia|].
    split; [apply Nat.div_lt_upper_bound; lia|apply Nat.mod_upper_bound; lia].
  Qed.

  Lemma lsum_scal_r (l : list mat) (f : mat -> T C) c : lsum C (map f l) * c = lsum C (map (fun x => f x * c) l).
  Proof. induction l as [|x l IH]; cbn [map lsum]; [ring|]. rewrite <- IH. ring. Qed.
  Lemma fsum_lsum_swap n (l : list mat) (f : nat -> mat -> T C) :
    fsum C n (fun i => lsum C (map (f i) l)) = lsum C (map (fun x => fsum C n (fun i => f i x)) l).
  Proof.
    induction l as [|x l IH]; cbn [map lsum]; [apply (fsum_zero C CL); reflexivity|]. rewrite (fsum_add C CL), IH. reflexivity.
  Qed.

  (** The matrix-free operator is the matrix. *)
  Lemma matvec_main M K Js v i : i < Nat.mul M M -> matvec C M K Js v i = mvec C (Nat.mul M M) (lmat C M K Js) v i.
  Proof.
    intros Hi. destruct (flat_index M i Hi) as (Ei & Ha & Hb). unfold matvec, flat, mvec, lmat.
    set (a := i / M) in *. set (b := i mod M) in *. clearbody a b. clear Ei Hi i.
    (* to a double sum over (c, d) *)
    transitivity (fsum C M (fun c => fsum C M (fun d =>
       (((if b =? d then K a c else 0) + (if a =? c then rconj C (K b d) else 0)) +
         lsum C (map (fun J : mat => J a c * rconj C (J b d)) Js)) * unflat C M v c d))).
    2:{ rewrite <- (fsum_flat C CL M M (fun c d => (((if b =? d then K a c else 0) + (if a =? c then rconj C (K b d) else 0)) +
         lsum C (map (fun J : mat => J a c * rconj C (J b d)) Js)) * unflat C M v c d)).
        apply fsum_ext. intros j Hj. destruct (flat_index M j Hj) as (Ej & _). unfold unflat. rewrite <- Ej. reflexivity. }
    set (rho := unflat C M v). clearbody rho. unfold lrho, mmul, dagger.
    transitivity (fsum C M (fun c => fsum C M (fun d => (if b =? d then K a c else 0) * rho c d)) +
      fsum C M (fun c => fsum C M (fun d => (if a =? c then rconj C (K b d) else 0) * rho c d)) +
      fsum C M (fun c => fsum C M (fun d => lsum C (map (fun J : mat => J a c * rconj C (J b d)) Js) * rho c d))).
    2:{ rewrite <- !(fsum_add C CL). apply fsum_ext. intros c Hc. rewrite <- !(fsum_add C CL). apply fsum_ext. intros d Hd. ring. }
    f_equal; [f_equal|].
    - apply fsum_ext. intros c Hc. rewrite <- (fsum_delta C CL M (fun d => K a c * rho c d) b Hb).
      apply fsum_ext. intros d Hd. rewrite (Nat.eqb_sym b d). destruct (d =? b); ring.
    - symmetry. rewrite <- (fsum_delta C CL M (fun c => fsum C M (fun d => rho c d * rconj C (K b d))) a Ha).
      apply fsum_ext. intros c Hc. rewrite (Nat.eqb_sym c a). destruct (a =? c).
      + apply fsum_ext. intros d Hd. ring.
      + apply (fsum_zero C CL). intros d Hd. ring.
    - symmetry. transitivity (fsum C M (fun c => fsum C M (fun d => lsum C (map (fun J : mat => J a c * rconj C (J b d) * rho c d) Js)))).
      { apply fsum_ext. intros c Hc. apply fsum_ext. intros d Hd. apply lsum_scal_r. }
      transitivity (lsum C (map (fun J : mat => fsum C M (fun c => fsum C M (fun d => J a c * rconj C (J b d) * rho c d))) Js)).
      { rewrite <- fsum_lsum_swap. apply fsum_ext. intros c Hc. rewrite fsum_lsum_swap. reflexivity. }
      f_equal. apply map_ext. intros J. rewrite (fsum_swap C CL). apply fsum_ext. intros d Hd. rewrite fsum_unscal.
      apply fsum_ext. intros c Hc. ring.
  Qed.

  (** The iterative solver *)
  Lemma iterative_main M K Js (x : vec) :
    (forall i, i < Nat.mul M M + 1 -> matvec_trace C M K Js x i = target C M i)%nat <->
    (kernel C (Nat.mul M M) (lmat C M K Js) x /\ trace C M (unflat C M x) = 1).
  Proof.
    unfold matvec_trace, target. split.
    - intros H. split.
      + intros i Hi. specialize (H i). destruct (Nat.eqb_spec i (Nat.mul M M)); [lia|].
        transitivity (matvec C M K Js x i); [symmetry; exact (matvec_main M K Js x i Hi)|]. apply H. lia.
      + specialize (H (Nat.mul M M)). rewrite Nat.eqb_refl in H. apply H. lia.
    - intros [H1 H2] i Hi. destruct (Nat.eqb_spec i (Nat.mul M M)); [exact H2|].
      rewrite matvec_main by lia. apply H1. lia.
  Qed.

  (** The state that is returned *)
  Lemma result_main M K Js (v : vec) inv : definite C ->
    kernel C (Nat.mul M M) (ldagl C (Nat.mul M M) (default_sparse None) (lmat C M K Js)) v ->
    inv * trace C M (unflat C M v) = 1 ->
    trace C M (normalised C M v inv) = 1 /\
    (forall a b, a < M -> b < M -> lrho C M K Js (normalised C M v inv) a b = 0).
  Proof.
    intros Hd Hk Hi. assert (Hk1 := proj1 (kernel_main _ _ _ Hd) Hk). clear Hk. rename Hk1 into Hk. split.
    - unfold trace, normalised. rewrite (fsum_scal C CL). exact Hi.
    - intros a b Ha Hb. set (w := fun i => inv * v i).
      assert (Hij : (a * M + b < M * M)%nat) by nia.
      assert (E := matvec_main M K Js w (a * M + b)%nat Hij).
      unfold matvec, flat in E. rewrite Nat.div_add_l, Nat.div_small, Nat.add_0_r in E by lia.
      rewrite Nat.add_comm, Nat.mod_add, Nat.mod_small in E by lia. rewrite Nat.add_comm in E.
      unfold normalised. unfold unflat in E |- *. unfold w in E at 1. rewrite E. unfold mvec.
      transitivity (inv * fsum C (M * M) (fun j => lmat C M K Js (a * M + b)%nat j * v j)).
      + rewrite fsum_unscal_l. apply fsum_ext. intros j Hj. unfold w. ring.
      + transitivity (inv * 0); [f_equal; exact (Hk _ Hij)|ring].
  Qed.
End P.

Lemma giC_definite : definite giC.
Proof.
  assert (G : forall n f, (0 <= fst (fsum giC n (fun i => rmul giC (rconj giC (f i)) (f i))))%Z /\
    (fst (fsum giC n (fun i => rmul giC (rconj giC (f i)) (f i))) = 0%Z -> forall i, i < n -> f i = r0 giC)).
  { induction n as [|n IH]; intros f; [split; [cbn; lia|intros _ i Hi; lia]|].
    destruct (IH f) as [I1 I2]. cbn [fsum]. set (s := fsum giC n _) in *.
    assert (E : fst (radd giC s (rmul giC (rconj giC (f n)) (f n))) = (fst s + (fst (f n) * fst (f n) + snd (f n) * snd (f n)))%Z).
    { cbn. ring. }
    rewrite E. assert (0 <= fst (f n) * fst (f n))%Z by apply Z.square_nonneg.
    assert (0 <= snd (f n) * snd (f n))%Z by apply Z.square_nonneg. split; [lia|].
    intros H1 i Hi. destruct (Nat.eq_dec i n) as [->|]; [|apply I2; lia].
    destruct (f n) as [x y]. cbn [fst snd] in *. assert (x * x = 0)%Z by lia. assert (y * y = 0)%Z by lia.
    change (r0 giC) with (0, 0)%Z. f_equal; nia. }
  intros n f H. apply G. rewrite H. reflexivity.
Qed.
Lemma cC_definite : definite cC.
Proof.
  assert (G : forall n f, (0 <= fst (fsum cC n (fun i => rmul cC (rconj cC (f i)) (f i))))%R /\
    (fst (fsum cC n (fun i => rmul cC (rconj cC (f i)) (f i))) = 0%R -> forall i, i < n -> f i = r0 cC)).
  { induction n as [|n IH]; intros f; [split; [cbn; lra|intros _ i Hi; lia]|].
    destruct (IH f) as [I1 I2]. cbn [fsum]. set (s := fsum cC n _) in *.
    assert (E : fst (radd cC s (rmul cC (rconj cC (f n)) (f n))) = (fst s + (fst (f n) * fst (f n) + snd (f n) * snd (f n)))%R).
    { cbn. ring. }
    rewrite E. assert (0 <= fst (f n) * fst (f n))%R by apply Rle_0_sqr.
    assert (0 <= snd (f n) * snd (f n))%R by apply Rle_0_sqr. split; [lra|].
    intros H1 i Hi. destruct (Nat.eq_dec i n) as [->|]; [|apply I2; [lra|lia]].
    destruct (f n) as [x y]. cbn [fst snd] in *. assert (x * x = 0)%R by lra. assert (y * y = 0)%R by lra.
    change (r0 cC) with (0%R, 0%R). f_equal; apply Rsqr_0_uniq; assumption. }
  intros n f H. apply G. rewrite H. reflexivity.
Qed.

Lemma method_main m : check_method m = if orb (String.eqb m "ed") (String.eqb m "iterative") then Ok (String.eqb m "ed") else Err ValueError.
Proof. unfold check_method. destruct (String.eqb m "ed"), (String.eqb m "iterative"); reflexivity. Qed.
