From Coq Require Import String List Arith ZArith Lia Bool Reals Lra.
From Verif Require Import Base Rings ARNN_Model ARNN_Proofs ToArray_Model Estim_Model Estim_Spec Estim_Proofs
  Balance_Spec Balance_Proofs LegQsr_Spec LegQsr_Proofs LegQsr_Step LegQsr_Final LegVmc_Model LegVmc_Proofs LegSr_Model LegSr_Spec LegSr_Proofs LegSr_Final
  LegJsr_Model LegJsr_Spec LegJsr_Proofs LegJsr_Update LegJsr_Final.
Import ListNotations.
Open Scope R_scope.

(** ** there are such solvers *)
Lemma krylov_cg n k : exact_krylov n k -> exact_cg n (fun A b x0 => fst (k A b x0)).
Proof.
  intros [K1 K2]. split.
  - intros A M b x0 HA _ (e & He & P). apply (K1 A M b x0 HA). exact (solvable n e M b He P).
  - intros A M b x0 HA HM _ (e & He & P) Hb _. destruct (solvable n e M b He P) as [x Hx].
    apply (K2 A M b x0 HA Hb). exists (re_vec x).
    assert (S : solves n (re_mat M) (re_vec b) x).
    { intros i Hi. transitivity (b i); [|unfold re_vec; specialize (Hb i Hi); destruct (b i); cbn in *; rewrite Hb; reflexivity].
      rewrite <- (Hx i Hi). apply (fsum_ext cC). intros j Hj. unfold re_mat. specialize (HM i j Hi Hj). destruct (M i j); cbn in HM; rewrite HM; reflexivity. }
    destruct (re_solves n M b x S) as [R S']. split; [exact R|]. intros i Hi.
    transitivity (re_vec b i); [rewrite <- (S' i Hi)|unfold re_vec; specialize (Hb i Hi); destruct (b i); cbn in *; rewrite Hb; reflexivity].
    apply (fsum_ext cC). intros j Hj. unfold re_mat. specialize (HM i j Hi Hj). destruct (M i j); cbn in HM; rewrite HM; reflexivity.
Qed.
Lemma cg1_exact : exact_cg 1 (fun A b x0 => fst (krylov1 A b x0)).
Proof. apply krylov_cg, krylov1_exact. Qed.

(** ** a phase *)
Definition phase_ranks : list (list vec) := [[fun _ => (0, 1)]].
Definition real1 : machine := Machine 1 (fun _ => false).
Lemma phase_balanced : balanced 1 phase_ranks.
Proof. repeat split; [lia|discriminate|repeat constructor]. Qed.
Lemma one_cov (o : vec) i j : cov [o] i j = (0, 0).
Proof. unfold cov, cavg, average. cbn. f_equal; field. Qed.
Lemma one_mean (o : vec) i : mean_of [o] i = o i.
Proof. unfold mean_of, cavg, average. cbn. destruct (o i). cbn. f_equal; field. Qed.
Lemma phase_refuted : exists m ranks f,
  balanced 1 ranks /\ has_complex m = false /\
  forall cg, exact_cg (m_n m) (cg (m_n m)) ->
  exists x y s1 s2, compute_update cg (SR (Some m) None 1) ranks f = Ok (x, s1) /\ compute_update_onthefly cg (SR (Some m) None 1) ranks f = Ok (y, s2) /\
    natural (m_n m) false 1 (concat ranks) f x /\ ~ natural (m_n m) false 1 (concat ranks) f y /\ x 0%nat <> y 0%nat.
Proof.
  exists real1, phase_ranks, (fun _ => (2, 0)). split; [exact phase_balanced|]. split; [reflexivity|]. intros cg Hcg.
  destruct (explicit_update cg real1 (SR (Some real1) None 1) phase_ranks 1 (fun _ => (2, 0)) eq_refl phase_balanced ltac:(cbn; lra) Hcg I) as (x & Ex & Nx).
  destruct (onthefly_real cg real1 (SR (Some real1) None 1) phase_ranks 1 (fun _ => (2, 0)) eq_refl phase_balanced ltac:(cbn; lra) Hcg (fun _ _ => eq_refl) I) as (y & Ey & Ny & Ry).
  exists x, y, (SR (Some real1) (Some (Flat 1 x)) 1), (SR (Some real1) (Some (Tree 1 y)) 1).
  split; [exact Ex|]. split; [exact Ey|]. split; [exact Nx|].
  destruct (Nx 0%nat ltac:(cbn; lia)) as [_ E1]. destruct (Ny 0%nat ltac:(cbn; lia)) as [_ E2].
  cbn [m_n real1 sr_shift phase_ranks concat app] in E1, E2. cbn [fsum] in E1, E2. rewrite one_cov in E1, E2. rewrite one_mean in E2. cbn in E1, E2.
  split.
  - intros Nn. destruct (Nn 0%nat ltac:(cbn; lia)) as [_ E3]. cbn [m_n real1 phase_ranks concat app] in E3. cbn [fsum] in E3. rewrite one_cov in E3. cbn in E3. lra.
  - intros E. rewrite E in E1. lra.
Qed.

(** ** real and complex parameters *)
Definition first_real (k : nat) : bool := match k with O => false | _ => true end.
Definition mixed2 : machine := Machine 2 first_real.
Definition mixed_ranks : list (list vec) := [[fun k => match k with O => (0, 1) | _ => (1, 0) end]].
Lemma mixed_balanced : balanced 1 mixed_ranks.
Proof. repeat split; [lia|discriminate|repeat constructor]. Qed.
Lemma mixed_refuted : exists m ranks v, balanced 1 ranks /\ typed (m_n m) (m_cplx m) v /\
  fst (fsum cC (m_n m) (fun i => (conj (v i) * mat_vec (m_n m) (m_cplx m) (/ 100) ranks v i)%C)) < 0.
Proof.
  exists mixed2, mixed_ranks, (fun k => match k with O => (1, 0) | _ => (0, -2) end).
  split; [exact mixed_balanced|]. split; [intros [|k] _ H; [reflexivity|discriminate]|].
  cbn [m_n m_cplx mixed2 fsum]. rewrite !(mat_vec_is 2 1 mixed_ranks mixed_balanced first_real).
  unfold gap. cbn [fsum mixed_ranks concat app]. rewrite !one_cov, !one_mean. cbn. lra.
Qed.
Definition twin_ranks : list (list vec) :=
  [[fun k => match k with O => (1, 0) | _ => (0, 1) end; fun k => match k with O => (-1, 0) | _ => (0, -1) end]].
Lemma twin_balanced : balanced 2 twin_ranks.
Proof. repeat split; [lia|discriminate|repeat constructor]. Qed.
Lemma twin_cov :
  cov (concat twin_ranks) 0 0 = (1, 0) /\ cov (concat twin_ranks) 0 1 = (0, 1) /\ cov (concat twin_ranks) 1 0 = (0, -1) /\ cov (concat twin_ranks) 1 1 = (1, 0).
Proof. unfold cov, cavg, average. cbn. repeat split; f_equal; field. Qed.
Lemma mixed_update_refuted : exists m ranks f,
  balanced 2 ranks /\ typed (m_n m) (m_cplx m) f /\ (0 < m_n m)%nat /\ m_cplx m 0%nat = false /\
  (exists x, natural (m_n m) true 1 (concat ranks) f x /\ snd (x 0%nat) <> 0) /\
  forall cg, exact_cg (m_n m) (cg (m_n m)) ->
  exists x s, compute_update cg (SR (Some m) None 1) ranks f = Ok (x, s) /\ natural (m_n m) true 1 (concat ranks) f x /\ snd (x 0%nat) <> 0.
Proof.
  exists mixed2, twin_ranks, (fun k => match k with O => (0, 0) | _ => (1, 0) end).
  assert (A : forall x, natural 2 true 1 (concat twin_ranks) (fun k => match k with O => (0, 0) | _ => (1, 0) end) x -> snd (x 0%nat) <> 0).
  { intros x Nx Z. pose proof (Nx 0%nat ltac:(lia)) as E0. pose proof (Nx 1%nat ltac:(lia)) as E1. cbn [fsum] in E0, E1.
    destruct twin_cov as (C00 & C01 & C10 & C11). rewrite C00, C01 in E0. rewrite C10, C11 in E1.
    apply (f_equal snd) in E0. apply (f_equal fst) in E1. cbn in E0, E1. lra. }
  split; [exact twin_balanced|]. split; [intros [|k] _ H; [reflexivity|discriminate]|]. split; [cbn; lia|]. split; [reflexivity|]. split.
  - destruct (natural_exists 2 true 1 (concat twin_ranks) (fun k => match k with O => (0, 0) | _ => (1, 0) end) ltac:(lra)) as [x Hx]. exists x. split; [exact Hx|apply A, Hx].
  - intros cg Hcg.
    destruct (explicit_update cg mixed2 (SR (Some mixed2) None 1) twin_ranks 2 (fun k => match k with O => (0, 0) | _ => (1, 0) end) eq_refl twin_balanced ltac:(cbn; lra) Hcg I) as (x & Ex & Nx).
    exists x, (SR (Some mixed2) (Some (Flat 2 x)) 1). split; [exact Ex|]. split; [exact Nx|]. apply A. exact Nx.
Qed.
