(** Gradients of the numpy Boltzmann machines *)
From Coq Require Import List Arith ZArith Bool Reals Lra Lia Ring Permutation.
From Verif Require Import Base Rings ARNN_Model ARNN_Proofs ToArray_Model Estim_Model Estim_Spec Estim_Proofs
  Group_Model Group_Spec Group_Proofs Symm_Model Symm_Spec Symm_Proofs Ansatz_Model Ansatz_Spec Ansatz_Proofs Equiv_Proofs LocVal_Proofs
  LegRbm_Model LegRbm_Spec LegRbm_Proofs.
Import ListNotations.
Open Scope R_scope.
Open Scope nat_scope.

Lemma cinv_mul z : z <> (0, 0)%R -> (z * cinv z)%C = r1 cC.
Proof.
  intros H. destruct z as [u v]. unfold cinv, cnorm2. cbn [fst snd].
  assert (N : (u * u + v * v <> 0)%R). { intros E. apply H. f_equal; nra. }
  cpx; field; exact N.
Qed.
Definition csinh (z : cpx) : cpx := rscal (1 / 2) (rsub cC (cexp z) (cexp (ropp cC z))).
Lemma ctanh_ccosh z : ccosh z <> (0, 0)%R -> (ctanh z * ccosh z)%C = csinh z.
Proof.
  intros H. unfold ctanh, csinh. cbv zeta. unfold ccosh in *. set (e := cexp z) in *. set (f := cexp (ropp cC z)) in *.
  rewrite !rscal_emb in *.
  assert (N : (e + f)%C <> (0, 0)%R).
  { intros E. apply H. rewrite E. unfold emb. cpx; rg. }
  transitivity ((emb (1 / 2) * (e - f)) * ((e + f) * cinv (e + f)))%C; [rg|]. rewrite cinv_mul by exact N. rg.
Qed.
Lemma cderiv_opp f x l : cderiv f x l -> cderiv (fun t => ropp cC (f t)) x (ropp cC l).
Proof.
  intros H. apply (cderiv_ext (fun t => (emb (-1) * f t)%C)); [intros t; unfold emb; cpx; rg|].
  apply (cderiv_eq _ _ (r0 cC * f x + emb (-1) * l)%C); [apply (cderiv_mul (fun _ => emb (-1)) f); [apply cderiv_const|exact H]|].
  unfold emb. cpx; rg.
Qed.
Lemma cderiv_rscal r f x l : cderiv f x l -> cderiv (fun t => rscal r (f t)) x (rscal r l).
Proof.
  intros H. apply (cderiv_ext (fun t => (emb r * f t)%C)); [intros t; now rewrite rscal_emb|].
  apply (cderiv_eq _ _ (r0 cC * f x + emb r * l)%C); [apply (cderiv_mul (fun _ => emb r) f); [apply cderiv_const|exact H]|].
  rewrite rscal_emb. rg.
Qed.
Lemma cderiv_cosh f x l : cderiv f x l -> cderiv (fun t => ccosh (f t)) x (csinh (f x) * l)%C.
Proof.
  intros H. unfold ccosh. eapply cderiv_eq.
  - apply cderiv_rscal. apply (cderiv_add (fun t => cexp (f t)) (fun t => cexp (ropp cC (f t)))).
    + apply cderiv_exp. exact H.
    + apply (cderiv_exp (fun t => ropp cC (f t))). apply cderiv_opp. exact H.
  - unfold csinh. rewrite !rscal_emb. rg.
Qed.
(** a product of factors with logarithmic derivatives [g] *)
Lemma cderiv_cprod n (f : nat -> R -> cpx) x g : (forall i, i < n -> cderiv (f i) x (f i x * g i)%C) ->
  cderiv (fun t => cprod n (fun i => f i t)) x (cprod n (fun i => f i x) * fsum cC n g)%C.
Proof.
  induction n as [|n IH]; intros H; cbn [cprod fsum].
  - apply (cderiv_eq _ _ (r0 cC)); [apply cderiv_const|]. rg.
  - eapply cderiv_eq; [apply (cderiv_mul (fun t => cprod n (fun i => f i t)) (f n)); [apply IH; auto|apply H; lia]|]. rg.
Qed.
Definition ofun (a : option (nat -> cpx)) (i : nat) : cpx := match a with None => (0, 0)%R | Some a => a i end.
Lemma visible_sum n a s : visible n a s = fsum cC n (fun i => (ofun a i * s i)%C).
Proof.
  unfold visible. destruct a as [a|]; [reflexivity|]. symmetry. apply (fsum_zero cC cC_laws). intros i _. cbn. cpx; rg.
Qed.
Lemma theta_sum n W b s j : theta n W b s j = (fsum cC n (fun i => W i j * s i) + ofun b j)%C.
Proof. unfold theta, ofun. destruct b; reflexivity. Qed.
Lemma cderiv_scale f c x l : cderiv f x l -> cderiv (fun t => f t * c)%C x (l * c)%C.
Proof.
  intros H. apply (cderiv_eq _ _ (l * c + f x * r0 cC)%C); [apply (cderiv_mul f (fun _ => c)); [exact H|apply cderiv_const]|]. rg.
Qed.
Lemma boltz_deriv n h (a b : R -> option (nat -> cpx)) W s t0 da db dW :
  (forall i, i < n -> cderiv (fun t => ofun (a t) i) t0 (da i)) ->
  (forall j, j < h -> cderiv (fun t => ofun (b t) j) t0 (db j)) ->
  (forall i j, i < n -> j < h -> cderiv (fun t => W t i j) t0 (dW i j)) ->
  (forall j, j < h -> ccosh (theta n (W t0) (b t0) s j) <> (0, 0)%R) ->
  cderiv (fun t => boltzmann n h (a t) (b t) (W t) s) t0
    (boltzmann n h (a t0) (b t0) (W t0) s *
      (fsum cC n (fun i => s i * da i)
       + (fsum cC h (fun j => ctanh (theta n (W t0) (b t0) s j) * db j)
          + fsum cC n (fun i => fsum cC h (fun j => s i * ctanh (theta n (W t0) (b t0) s j) * dW i j)))))%C.
Proof.
  intros Ha Hb HW Hc. unfold boltzmann.
  set (th := fun j => theta n (W t0) (b t0) s j) in *.
  set (dth := fun j => (fsum cC n (fun i => dW i j * s i) + db j)%C).
  eapply cderiv_eq.
  - apply (cderiv_mul (fun t => cexp (visible n (a t) s)) (fun t => cprod h (fun j => ccosh (theta n (W t) (b t) s j)))).
    + apply (cderiv_exp (fun t => visible n (a t) s) t0 (fsum cC n (fun i => (da i * s i)%C))).
      apply (cderiv_ext (fun t => fsum cC n (fun i => (ofun (a t) i * s i)%C))); [intros t; symmetry; apply visible_sum|].
      apply (cderiv_fsum n (fun i t => (ofun (a t) i * s i)%C)). intros i Hi. apply (cderiv_scale (fun t => ofun (a t) i)). auto.
    + apply (cderiv_cprod h (fun j t => ccosh (theta n (W t) (b t) s j)) t0 (fun j => (ctanh (th j) * dth j)%C)).
      intros j Hj. apply (cderiv_eq _ _ (csinh (th j) * dth j)%C).
      * apply (cderiv_cosh (fun t => theta n (W t) (b t) s j)).
        apply (cderiv_ext (fun t => (fsum cC n (fun i => W t i j * s i) + ofun (b t) j)%C)); [intros t; symmetry; apply theta_sum|].
        apply (cderiv_add (fun t => fsum cC n (fun i => (W t i j * s i)%C)) (fun t => ofun (b t) j)); [|auto].
        apply (cderiv_fsum n (fun i t => (W t i j * s i)%C)). intros i Hi. apply (cderiv_scale (fun t => W t i j)). auto.
      * rewrite <- (ctanh_ccosh (th j)) by (apply Hc; exact Hj). unfold th. rg.
  - assert (E1 : fsum cC n (fun i => (da i * s i)%C) = fsum cC n (fun i => (s i * da i)%C)).
    { apply (fsum_ext cC). intros i _. rg. }
    assert (E2 : fsum cC h (fun j => (ctanh (th j) * dth j)%C) = (fsum cC h (fun j => ctanh (th j) * db j)
          + fsum cC n (fun i => fsum cC h (fun j => s i * ctanh (th j) * dW i j)))%C).
    { rewrite (fsum_swap cC cC_laws n h). rewrite <- (fsum_add cC cC_laws). apply (fsum_ext cC). intros j _. unfold dth.
      transitivity ((ctanh (th j) * db j) + ctanh (th j) * fsum cC n (fun i => dW i j * s i))%C; [rg|]. f_equal.
      rewrite <- (fsum_scal cC cC_laws). apply (fsum_ext cC). intros i _. rg. }
    rewrite E1, E2. unfold th. set (p := cprod h _). set (e := cexp _). rg.
Qed.

(** ** the gradient returned by the code *)
Lemma fsum_0 n : fsum cC n (fun _ => (0, 0)%R) = r0 cC.
Proof. apply (fsum_zero cC cC_laws). reflexivity. Qed.
Lemma bare_dot c p s (F : nat -> cpx) : length p = n_par c ->
  fsum cC (n_bare c) (fun q => at_ (bare_der c (expand c p) s) q * F q)%C
  = (fsum cC (c_n c) (fun i => row_fn s i * (if c_vis c then F i else (0, 0)%R))
     + (fsum cC (c_hidden c) (fun j => ctanh (unit_input c p s j) * (if c_hid c then F (off_b c + j)%nat else (0, 0)%R))
        + fsum cC (c_n c) (fun i => fsum cC (c_hidden c) (fun j => row_fn s i * ctanh (unit_input c p s j) * F (off_w c + (i * c_hidden c + j))%nat))))%C.
Proof.
  intros _. rewrite n_bare_off. unfold off_w at 1. rewrite (fsum_app cC cC_laws), (fsum_app cC cC_laws).
  set (r := fun j => ctanh (dense (c_n c) (bare_w c (expand c p)) (bare_b c (expand c p)) (row_fn s) j)).
  assert (Hr : forall j, j < c_hidden c -> r j = ctanh (unit_input c p s j)).
  { intros j Hj. unfold r. now rewrite dense_doc. }
  unfold bare_der. cbv zeta. fold r.
  set (A := if c_vis c then map (row_fn s) (seq 0 (c_n c)) else []).
  set (B := if c_hid c then map r (seq 0 (c_hidden c)) else []).
  set (G := flat_map _ _).
  assert (LA : length A = off_b c) by (unfold A, off_b; destruct (c_vis c); [now rewrite map_length, seq_length|reflexivity]).
  assert (LB : length B = len_if (c_hid c) (c_hidden c)) by (unfold B; destruct (c_hid c); [now rewrite map_length, seq_length|reflexivity]).
  match goal with |- ((?X + ?Y) + ?Z)%C = _ => transitivity (X + (Y + Z))%C; [rg|] end. f_equal; [|f_equal].
  - unfold off_b, A. destruct (c_vis c) eqn:Hv; cbn [len_if].
    + apply (fsum_ext cC). intros i Hi. rewrite at_app1 by (now rewrite map_length, seq_length). now rewrite at_map_seq.
    + cbn [fsum]. symmetry. apply (fsum_zero cC cC_laws). intros i _. cpx; rg.
  - destruct (c_hid c) eqn:Hv; cbn [len_if].
    + apply (fsum_ext cC). intros j Hj. rewrite at_app2 by exact LA. rewrite at_app1 by (rewrite LB; exact Hj).
      unfold B. rewrite at_map_seq by exact Hj. now rewrite Hr.
    + cbn [fsum]. symmetry. apply (fsum_zero cC cC_laws). intros i _. cpx; rg.
  - rewrite fsum_pair. apply (fsum_ext cC). intros i Hi. apply (fsum_ext cC). intros j Hj.
    rewrite <- Nat.add_assoc, at_app2 by exact LA. rewrite at_app2 by exact LB. unfold G, at_.
    rewrite (grid_nth (0, 0)%R (fun i j => rmul cC (row_fn s i) (r j))) by assumption. rewrite Hr by exact Hj.
    unfold off_w. rewrite <- !Nat.add_assoc. reflexivity.
Qed.
Lemma bare_der_length c bp s : length (bare_der c bp s) = n_bare c.
Proof.
  unfold bare_der. cbv zeta. rewrite n_bare_off. unfold off_w, off_b. rewrite !app_length.
  rewrite (grid_length (fun i j => rmul cC (row_fn s i) (ctanh (dense (c_n c) (bare_w c bp) (bare_b c bp) (row_fn s) j)))).
  destruct (c_vis c), (c_hid c); cbn [len_if length]; rewrite ?map_length, ?seq_length; lia.
Qed.
Lemma der_row_length c bp s : length (der_row c bp s) = n_par c.
Proof.
  unfold der_row. destruct (c_sym c) as [rows|] eqn:HS; [now rewrite map_length, seq_length|].
  rewrite bare_der_length. unfold n_par. now rewrite HS.
Qed.
Lemma idx_bound c q : proper c -> q < n_bare c -> idx c q < n_par c.
Proof.
  intros HP Hq. rewrite n_bare_off in Hq. rewrite n_par_off.
  destruct (Nat.lt_ge_cases q (off_b c)) as [H1|H1].
  - unfold off_b in H1. destruct (c_vis c) eqn:Hv; cbn [len_if] in H1; [|lia]. rewrite idx_a by assumption.
    unfold size_a. rewrite Hv. destruct (c_sym c); lia.
  - destruct (Nat.lt_ge_cases q (off_w c)) as [H2|H2].
    + unfold off_w in H2. destruct (c_hid c) eqn:Hv; cbn [len_if] in H2; [|lia].
      replace q with (off_b c + (q - off_b c)) by lia. rewrite idx_b by (auto; lia).
      unfold size_b. rewrite Hv. unfold c_hidden in H2. destruct (c_sym c) as [rows|]; [|lia].
      assert (length rows <> 0) by (intros E; rewrite E in H2; lia).
      assert ((q - off_b c) / length rows < c_feat c) by (apply Nat.div_lt_upper_bound; lia). lia.
    + set (u := q - off_w c). assert (Hh : c_hidden c <> 0) by (intros E; rewrite E in Hq; lia).
      assert (Hi : u / c_hidden c < c_n c) by (apply Nat.div_lt_upper_bound; [exact Hh|unfold u; lia]).
      assert (Hj : u mod c_hidden c < c_hidden c) by (apply Nat.mod_upper_bound; exact Hh).
      replace q with (off_w c + (u / c_hidden c * c_hidden c + u mod c_hidden c)).
      2:{ rewrite (Nat.mul_comm (u / _)), <- Nat.div_mod by exact Hh. unfold u. lia. }
      rewrite idx_w by assumption. set (i := u / c_hidden c) in *. set (j := u mod c_hidden c) in *.
      unfold c_hidden in Hj, Hh. destruct (c_sym c) as [rows|] eqn:HS; [|nia].
      assert (Hr : length rows <> 0) by (intros E; rewrite E in Hj; lia).
      assert (Hl : j / length rows < c_feat c) by (apply Nat.div_lt_upper_bound; lia).
      assert (Hg : nth i (nth (j mod length rows) rows []) 0 < c_n c).
      { pose proof (HP rows HS) as F. rewrite Forall_forall in F.
        assert (Hin : In (nth (j mod length rows) rows []) rows) by (apply nth_In, Nat.mod_upper_bound; exact Hr).
        specialize (F _ Hin). unfold isperm in F. assert (Hin2 : In (nth i (nth (j mod length rows) rows []) 0) (seq 0 (c_n c))).
        { apply (Permutation_in _ F). apply nth_In. rewrite (Permutation_length F), seq_length. exact Hi. }
        apply in_seq in Hin2. lia. }
      nia.
Qed.
Lemma der_dot c bp s (dp : nat -> cpx) : proper c ->
  fsum cC (n_par c) (fun k => at_ (der_row c bp s) k * dp k)%C
  = fsum cC (n_bare c) (fun q => at_ (bare_der c bp s) q * dp (idx c q))%C.
Proof.
  intros HP. unfold der_row, idx. destruct (c_sym c) as [rows|] eqn:HS.
  2:{ unfold n_par. rewrite HS. reflexivity. }
  set (d := bare_der c bp s). cbv zeta.
  transitivity (fsum cC (n_par c) (fun k => fsum cC (n_bare c) (fun q => (at_ d q * der_mat c rows k q * dp k)%C))).
  { apply (fsum_ext cC). intros k Hk. rewrite at_map_seq by exact Hk. now rewrite (fsum_scal_r cC cC_laws). }
  rewrite (fsum_swap cC cC_laws). apply (fsum_ext cC). intros q Hq.
  pose proof (idx_bound c q HP Hq) as B. unfold idx in B. rewrite HS in B.
  transitivity (fsum cC (n_par c) (fun k => if k =? nth q (der_rows c rows) 0 then (at_ d q * dp k)%C else r0 cC)).
  - apply (fsum_ext cC). intros k _. unfold der_mat. rewrite (Nat.eqb_sym k). destruct (nth q (der_rows c rows) 0 =? k); cpx; rg.
  - rewrite (fsum_delta cC cC_laws) by exact B. reflexivity.
Qed.
Lemma gradient_main c (p : R -> list cpx) s t0 dp : proper c -> (forall t, length (p t) = n_par c) ->
  (forall k, k < n_par c -> cderiv (fun t => nth k (p t) (0, 0)%R) t0 (dp k)) ->
  (forall j, j < doc_hidden c -> ccosh (unit_input c (p t0) s j) <> (0, 0)%R) ->
  cderiv (fun t => doc_amplitude c (p t) s) t0
    (doc_amplitude c (p t0) s * fsum cC (n_par c) (fun k => nth k (der_row c (expand c (p t0)) s) (0, 0)%R * dp k))%C.
Proof.
  intros HP HL HD HC.
  assert (D : forall q, q < n_bare c -> cderiv (fun t => at_ (p t) (idx c q)) t0 (dp (idx c q))).
  { intros q Hq. apply HD. now apply idx_bound. }
  pose proof (n_bare_off c) as NB.
  eapply cderiv_eq.
  - apply (boltz_deriv (c_n c) (doc_hidden c) (fun t => doc_a c (p t)) (fun t => doc_b c (p t)) (fun t => doc_w c (p t)) _ t0
        (fun i => if c_vis c then dp (idx c i) else (0, 0)%R) (fun j => if c_hid c then dp (idx c (off_b c + j)) else (0, 0)%R)
        (fun i j => dp (idx c (off_w c + (i * c_hidden c + j))))).
    + intros i Hi. unfold doc_a. destruct (c_vis c) eqn:Hv; cbn [ofun]; [|apply (cderiv_const (0, 0)%R)].
      assert (Hq : i < n_bare c) by (rewrite NB; unfold off_w, off_b; rewrite Hv; cbn [len_if]; lia).
      specialize (D i Hq). rewrite idx_a in D by assumption. rewrite idx_a by assumption. exact D.
    + intros j Hj. unfold doc_b. destruct (c_hid c) eqn:Hv; cbn [ofun]; [|apply (cderiv_const (0, 0)%R)].
      change (doc_hidden c) with (c_hidden c) in Hj.
      assert (Hq : off_b c + j < n_bare c) by (rewrite NB; unfold off_w; rewrite Hv; cbn [len_if]; lia).
      specialize (D _ Hq). rewrite idx_b in D by assumption. rewrite idx_b by assumption. exact D.
    + intros i j Hi Hj. change (doc_hidden c) with (c_hidden c) in Hj.
      assert (Hq : off_w c + (i * c_hidden c + j) < n_bare c) by (rewrite NB; nia).
      specialize (D _ Hq). rewrite idx_w in D by assumption. rewrite idx_w by assumption.
      unfold doc_w, entries. destruct (c_sym c); exact D.
    + exact HC.
  - unfold doc_amplitude. f_equal. change (fun k => (nth k (der_row c (expand c (p t0)) s) (0, 0)%R * dp k)%C) with (fun k => (at_ (der_row c (expand c (p t0)) s) k * dp k)%C).
    rewrite der_dot by exact HP. rewrite bare_dot by (apply HL). unfold unit_input. change (doc_hidden c) with (c_hidden c).
    change (fun i => nth i s (0, 0)%R) with (row_fn s). reflexivity.
Qed.
