From Coq Require Import String List Arith ZArith Lia Bool Reals Lra.
From Verif Require Import Base Rings ARNN_Model ARNN_Proofs ToArray_Model Estim_Model Estim_Spec Estim_Proofs
  Balance_Spec Balance_Proofs LegQsr_Spec LegQsr_Proofs LegQsr_Step LegQsr_Final LegVmc_Model LegVmc_Proofs LegSr_Model LegSr_Spec LegSr_Proofs LegSr_Final
  LegJsr_Model LegJsr_Spec LegJsr_Proofs.
Import ListNotations.
Open Scope R_scope.

(** ** hermitian, positive *)
Lemma cov_herm samples i j : cov samples i j = conj (cov samples j i).
Proof. unfold cov. rewrite conj_cavg. apply cavg_ext. intros o _. rewrite (cr_conj_mul cC cC_laws), (cr_conj_conj cC cC_laws). ring. Qed.
Lemma reg_herm n shift samples : herm n (reg shift samples).
Proof.
  intros i j _ _. unfold reg. rewrite (cov_herm samples i j), (Nat.eqb_sym j i). destruct (i =? j)%nat; cpx; ring.
Qed.
Lemma re_herm n M : herm n M -> herm n (re_mat M).
Proof. intros H i j Hi Hj. unfold re_mat. rewrite (H i j Hi Hj). cpx; ring. Qed.
Lemma pos_def_of n e M : 0 < e -> positive n e M -> pos_def n M.
Proof. intros He P. exists e. split; [exact He|exact P]. Qed.

(** ** one update *)
Lemma any_complex_false cplx n : any_complex cplx n = false <-> (forall k, (k < n)%nat -> cplx k = false).
Proof.
  unfold any_complex. split.
  - intros H k Hk. destruct (cplx k) eqn:E; [|reflexivity]. rewrite <- H. symmetry. apply existsb_exists. exists k. split; [apply in_seq; lia|exact E].
  - intros H. apply not_true_is_false. intros E. apply existsb_exists in E. destruct E as (k & Hk & Ek). apply in_seq in Hk. rewrite H in Ek by lia. discriminate.
Qed.
Definition start_fits (onthefly : bool) (m : machine) (x0 : option start) : Prop :=
  match x0 with
  | None => True
  | Some (Flat k x) => onthefly = false /\ k = m_n m /\ (has_complex m = false -> real_vec k x)
  | Some (Tree k x) => onthefly = true /\ k = m_n m /\ (has_complex m = false -> real_vec k x)
  end.
Lemma keep_re n f i : (i < n)%nat -> keep false (f i) = re_vec f i.
Proof. reflexivity. Qed.

Section One.
  Variable cg : nat -> (vec -> vec) -> vec -> vec -> vec.
  Variables (m : machine) (s : sr) (ranks : list (list vec)) (t : nat) (f : vec).
  Notation n := (m_n m).
  Notation all := (concat ranks).
  Notation shift := (sr_shift s).
  Hypothesis Hm : sr_machine s = Some m.
  Hypothesis B : balanced t ranks.
  Hypothesis Hs : 0 < shift.
  Hypothesis Hcg : exact_cg n (cg n).

  Lemma flat_ok : start_fits false m (sr_x0 s) -> exists x0, flat_start n (sr_x0 s) = Ok x0 /\ (has_complex m = false -> real_vec n x0).
  Proof.
    unfold start_fits, flat_start. destruct (sr_x0 s) as [[k x|k x]|].
    - intros (_ & -> & H). rewrite Nat.eqb_refl. eexists. split; [reflexivity|exact H].
    - intros [H _]. discriminate.
    - intros _. eexists. split; [reflexivity|]. intros _ i _. reflexivity.
  Qed.
  Lemma tree_ok : start_fits true m (sr_x0 s) -> exists x0, tree_start n (sr_x0 s) = Ok x0 /\ (has_complex m = false -> real_vec n x0).
  Proof.
    unfold start_fits, tree_start. destruct (sr_x0 s) as [[k x|k x]|].
    - intros [H _]. discriminate.
    - intros (_ & -> & H). rewrite Nat.eqb_refl. eexists. split; [reflexivity|exact H].
    - intros _. eexists. split; [reflexivity|]. intros _ i _. reflexivity.
  Qed.
  Lemma explicit_update : start_fits false m (sr_x0 s) ->
    exists x, compute_update cg s ranks f = Ok (x, SR (Some m) (Some (Flat n x)) shift) /\ natural n (has_complex m) shift all f x.
  Proof.
    intros S0. destruct (flat_ok S0) as (x0 & E0 & R0). unfold compute_update. rewrite Hm, E0. cbn [bind].
    eexists. split; [reflexivity|]. destruct (has_complex m) eqn:Hc.
    - apply natural_c. destruct Hcg as [K _]. apply K; [intros v i Hi; apply (matvec_cmplx_is n t); assumption|apply reg_herm|apply (pos_def_of n shift); [exact Hs|apply reg_positive]].
    - apply natural_r. destruct Hcg as [_ K].
      apply (K (matvec_real n shift ranks) (re_mat (reg shift all)) (re_vec f) x0).
      + intros v i Hv Hi. apply (matvec_real_is n t); assumption.
      + intros i j _ _. reflexivity.
      + apply re_herm, reg_herm.
      + apply (pos_def_of n shift); [exact Hs|apply re_positive, reg_positive].
      + intros i _. reflexivity.
      + apply R0. reflexivity.
  Qed.

  (** *** on the fly *)
  Definition phase_mat : mat := fun i j => (fst (reg shift all i j) + snd (mean_of all i) * snd (mean_of all j), 0).
  Lemma phase_quad v : fst (quad n phase_mat v)
    = fst (quad n (re_mat (reg shift all)) v) + cnorm2 (fsum cC n (fun j => (emb (snd (mean_of all j)) * v j)%C)).
  Proof.
    set (b := fun j => snd (mean_of all j)). set (G := fsum cC n (fun j => (emb (b j) * v j)%C)).
    assert (E : quad n phase_mat v = (quad n (re_mat (reg shift all)) v + emb (cnorm2 G))%C).
    { unfold quad.
      transitivity (fsum cC n (fun i => (conj (v i) * fsum cC n (fun j => re_mat (reg shift all) i j * v j) + G * (emb (b i) * conj (v i)))%C)).
      - apply (fsum_ext cC). intros i _.
        transitivity (conj (v i) * (fsum cC n (fun j => re_mat (reg shift all) i j * v j) + emb (b i) * G))%C; [|ring]. f_equal.
        unfold G. rewrite <- (fsum_scal cC cC_laws), <- (fsum_add cC cC_laws). apply (fsum_ext cC). intros j _. unfold phase_mat, re_mat, emb, b. cpx; ring.
      - rewrite (fsum_add cC cC_laws), (fsum_scal cC cC_laws). f_equal.
        assert (Ec : fsum cC n (fun i => (emb (b i) * conj (v i))%C) = conj G).
        { unfold G. rewrite (conj_fsum cC cC_laws). apply (fsum_ext cC). intros i _. rewrite (cr_conj_mul cC cC_laws). unfold emb. cpx; ring. }
        rewrite Ec, cnorm2_conj. ring. }
    rewrite E. unfold emb. cbn [radd cC fst]. reflexivity.
  Qed.
  Lemma phase_positive : positive n shift phase_mat.
  Proof.
    intros v. rewrite phase_quad. pose proof (re_positive n shift _ (reg_positive n shift all) v).
    pose proof (cnorm2_nonneg (fsum cC n (fun j => (emb (snd (mean_of all j)) * v j)%C))). lra.
  Qed.
  Lemma phase_herm : herm n phase_mat.
  Proof.
    intros i j Hi Hj. unfold phase_mat. rewrite (reg_herm n shift all i j Hi Hj). cpx; ring.
  Qed.
  Lemma real_product v i : (forall k, (k < n)%nat -> m_cplx m k = false) -> real_vec n v -> (i < n)%nat ->
    mat_vec n (m_cplx m) shift ranks v i = fsum cC n (fun j => (phase_mat i j * v j)%C).
  Proof.
    intros Hr Hv Hi. rewrite (mat_vec_is n t ranks B (m_cplx m) shift v i), (Hr i Hi). unfold keep.
    assert (G : gap n ranks (m_cplx m) v = (0, fsum rR n (fun l => snd (mean_of all l) * fst (v l)))).
    { unfold gap. apply injective_projections; [rewrite fst_fsum|rewrite snd_fsum]; cbn [fst snd].
      - apply (fsum_zero rR rR_laws). intros l Hl. rewrite (Hr l Hl). cbn. rewrite (Hv l Hl). ring.
      - apply (fsum_ext rR). intros l Hl. rewrite (Hr l Hl). cbn. ring. }
    rewrite G. pose proof (reg_mul n shift all v i Hi) as E. apply (f_equal fst) in E.
    revert E. set (y := fsum cC n (fun j => (cov all i j * v j)%C)). set (g := fsum rR n (fun l => snd (mean_of all l) * fst (v l))). intros E.
    change (fst (y + rscal shift (v i))%C) with (fst y + fst (rscal shift (v i))) in E.
    apply injective_projections; cbn [radd cC rmul rconj fst snd]; subst g.
    - rewrite fst_fsum.
      transitivity (fst (fsum cC n (fun j => (reg shift all i j * v j)%C)) + snd (mean_of all i) * fsum rR n (fun l => snd (mean_of all l) * fst (v l))).
      + rewrite E. generalize (fsum rR n (fun l => snd (mean_of all l) * fst (v l))). intros g. ring.
      + rewrite fst_fsum.
        assert (Sc : snd (mean_of all i) * fsum rR n (fun l => snd (mean_of all l) * fst (v l)) = fsum rR n (fun l => snd (mean_of all i) * (snd (mean_of all l) * fst (v l))))
          by (symmetry; exact (fsum_scal rR rR_laws n (snd (mean_of all i)) (fun l => snd (mean_of all l) * fst (v l)))).
        rewrite Sc. etransitivity; [symmetry; exact (fsum_add rR rR_laws n (fun j => fst (reg shift all i j * v j)%C) (fun l => snd (mean_of all i) * (snd (mean_of all l) * fst (v l))))|].
        apply (fsum_ext rR). intros j Hj. unfold phase_mat. cbn. rewrite (Hv j Hj). ring.
    - rewrite snd_fsum. symmetry. transitivity 0; [|unfold rscal; cbn [snd]; rewrite (Hv i Hi); ring].
      apply (fsum_zero rR rR_laws). intros j Hj. unfold phase_mat. cbn. rewrite (Hv j Hj). ring.
  Qed.
  Lemma phase_solves x : real_vec n x -> solves n phase_mat (re_vec f) x -> natural_phase n shift all f x.
  Proof.
    intros Hr Hx i Hi. split; [apply Hr, Hi|]. specialize (Hx i Hi). apply (f_equal fst) in Hx. rewrite fst_fsum in Hx. unfold re_vec in Hx. cbn [fst] in Hx. rewrite <- Hx.
    pose proof (reg_mul n shift all x i Hi) as E. apply (f_equal fst) in E. cbn [radd cC fst] in E. rewrite !fst_fsum in E. unfold rscal in E. cbn [fst] in E.
    assert (A : forall g h : nat -> R, fsum rR n (fun j => g j + h j) = fsum rR n g + fsum rR n h) by (intros g h; exact (fsum_add rR rR_laws n g h)).
    rewrite (fsum_ext rR n (fun j => (fst (cov all i j) + snd (mean_of all i) * snd (mean_of all j)) * fst (x j))
      (fun j => fst (cov all i j) * fst (x j) + snd (mean_of all i) * snd (mean_of all j) * fst (x j))) by (intros; cbn; ring).
    rewrite (fsum_ext rR n (fun j => fst (phase_mat i j * x j)%C)
      (fun j => fst (reg shift all i j) * fst (x j) + snd (mean_of all i) * snd (mean_of all j) * fst (x j))) by (intros; unfold phase_mat; cbn; ring).
    rewrite !A.
    assert (E2 : fsum rR n (fun j => fst (reg shift all i j) * fst (x j)) = fsum rR n (fun j => fst (cov all i j) * fst (x j)) + shift * fst (x i)).
    { rewrite (fsum_ext rR n (fun j => fst (reg shift all i j) * fst (x j)) (fun j => fst (reg shift all i j * x j)%C)) by (intros j Hj; cbn; rewrite (Hr j Hj); ring).
      rewrite E. f_equal. apply (fsum_ext rR). intros j Hj. cbn. rewrite (Hr j Hj). ring. }
    rewrite E2. ring.
  Qed.
  Lemma onthefly_real : (forall k, (k < n)%nat -> m_cplx m k = false) -> start_fits true m (sr_x0 s) ->
    exists x, compute_update_onthefly cg s ranks f = Ok (x, SR (Some m) (Some (Tree n x)) shift) /\ natural_phase n shift all f x /\ real_vec n x.
  Proof.
    intros Hr S0. destruct (tree_ok S0) as (x0 & E0 & R0). unfold compute_update_onthefly. rewrite Hm, E0. cbn [bind].
    eexists. split; [reflexivity|]. destruct Hcg as [_ K].
    destruct (K (mat_vec n (m_cplx m) shift ranks) phase_mat (fun k => keep (m_cplx m k) (f k)) x0) as [Kr Kx].
    - intros v i Hv Hi. apply real_product; assumption.
    - intros i j _ _. reflexivity.
    - apply phase_herm.
    - apply (pos_def_of n shift); [exact Hs|apply phase_positive].
    - intros i Hi. rewrite (Hr i Hi). reflexivity.
    - apply R0. apply any_complex_false, Hr.
    - split; [|exact Kr]. apply phase_solves; [exact Kr|]. intros i Hi. rewrite (Kx i Hi), (Hr i Hi). reflexivity.
  Qed.
  Lemma onthefly_complex : (forall k, (k < n)%nat -> m_cplx m k = true) -> start_fits true m (sr_x0 s) ->
    exists x, compute_update_onthefly cg s ranks f = Ok (x, SR (Some m) (Some (Tree n x)) shift) /\ natural n true shift all f x.
  Proof.
    intros Hr S0. destruct (tree_ok S0) as (x0 & E0 & R0). unfold compute_update_onthefly. rewrite Hm, E0. cbn [bind].
    eexists. split; [reflexivity|]. apply natural_c. destruct Hcg as [K _].
    set (g := fun k => keep (m_cplx m k) (f k)).
    assert (Kx : solves n (reg shift all) g (cg n (mat_vec n (m_cplx m) shift ranks) g x0)).
    { apply K.
      - intros v i Hi. rewrite (reg_mul n shift all v i Hi).
        assert (Tv : typed n (m_cplx m) v) by (intros k Hk E; rewrite (Hr k Hk) in E; discriminate).
        destruct (onthefly_iff n t ranks B (m_cplx m) shift) as [_ Hi2].
        rewrite (Hi2 ltac:(intros l Hl E; rewrite (Hr l Hl) in E; discriminate) v Tv i Hi). unfold shifted_product. rewrite (Hr i Hi). reflexivity.
      - apply reg_herm.
      - apply (pos_def_of n shift); [exact Hs|apply reg_positive]. }
    intros i Hi. rewrite (Kx i Hi). unfold g. rewrite (Hr i Hi). reflexivity.
  Qed.
  Lemma phase_natural x : (forall k, (k < n)%nat -> snd (mean_of all k) = 0) -> natural_phase n shift all f x -> natural n false shift all f x.
  Proof.
    intros Z H i Hi. destruct (H i Hi) as [H1 H2]. split; [exact H1|]. rewrite <- H2. f_equal. apply (fsum_ext rR). intros j Hj. rewrite (Z i Hi). cbn. ring.
  Qed.
End One.
