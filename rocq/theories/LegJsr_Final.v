From Coq Require Import String List Arith ZArith Lia Bool Reals Lra.
From Verif Require Import Base Rings ARNN_Model ARNN_Proofs ToArray_Model Estim_Model Estim_Spec Estim_Proofs
  Balance_Spec Balance_Proofs LegQsr_Spec LegQsr_Proofs LegQsr_Step LegQsr_Final LegVmc_Model LegVmc_Proofs LegSr_Model LegSr_Spec LegSr_Proofs LegSr_Final
  LegJsr_Model LegJsr_Spec LegJsr_Proofs LegJsr_Update.
Import ListNotations.
Open Scope R_scope.

(** ** derivatives *)
Lemma combine_maps {A B A' B'} (f : A -> A') (g : B -> B') (l : list A) (l' : list B) :
  combine (map f l) (map g l') = map (fun p => (f (fst p), g (snd p))) (combine l l').
Proof. revert l'. induction l as [|a l IH]; intros [|b l']; cbn; try reflexivity. rewrite IH. reflexivity. Qed.
Lemma combine_map1 {A B A'} (f : A -> A') (l : list A) (l' : list B) :
  combine (map f l) l' = map (fun p => (f (fst p), snd p)) (combine l l').
Proof. rewrite <- (map_id l') at 1. rewrite (combine_maps f (fun b => b)). reflexivity. Qed.
Lemma vjp_rc_is cplx rows w c k : cplx k = false ->
  vjp_rc cplx rows w c k = if c then dagger_times rows w k else conj (dagger_times rows w k).
Proof.
  intros Hk. unfold vjp_rc, pull, re_rows, im_rows, re_list, im_list, dagger_times.
  enough (E : forall P : list (cpx * vec),
    (keep false (lsum cC (map (fun p => ((fst (fst p), 0%R) * (fst (snd p k), 0%R))%C) P))
      - imul (keep false (lsum cC (map (fun p => ((snd (fst p), 0%R) * (fst (snd p k), 0%R))%C) P)))
      + imul (keep false (lsum cC (map (fun p => ((fst (fst p), 0%R) * (snd (snd p k), 0%R))%C) P))
              - imul (keep false (lsum cC (map (fun p => ((snd (fst p), 0%R) * (snd (snd p k), 0%R))%C) P)))))%C
    = conj (lsum cC (map (fun p => (conj (snd p k) * fst p)%C) P))).
  { specialize (E (combine w rows)). destruct c; cbv beta zeta; rewrite !combine_maps, !map_map, Hk; cbn [fst snd]; [|exact E]. transitivity (conj (conj (lsum cC (map (fun p => (conj (snd p k) * fst p)%C) (combine w rows))))); [f_equal; exact E|apply (cr_conj_conj cC cC_laws)]. }
  induction P as [|p P IH]; [cbn; unfold imul; cpx; cbn; ring|]. cbn [map lsum]. rewrite !keep_add.
  assert (C : forall a b : cpx, conj (a + b)%C = (conj a + conj b)%C) by (intros; cpx; ring). rewrite C, <- IH.
  generalize (keep false (lsum cC (map (fun p => ((fst (fst p), 0%R) * (fst (snd p k), 0%R))%C) P))).
  generalize (keep false (lsum cC (map (fun p => ((snd (fst p), 0%R) * (fst (snd p k), 0%R))%C) P))).
  generalize (keep false (lsum cC (map (fun p => ((fst (fst p), 0%R) * (snd (snd p k), 0%R))%C) P))).
  generalize (keep false (lsum cC (map (fun p => ((snd (fst p), 0%R) * (snd (snd p k), 0%R))%C) P))).
  intros A1 A2 A3 A4. destruct p as [z o]. cbn [fst snd]. destruct (o k) as [o1 o2], z as [z1 z2]. unfold keep, imul. cpx; cbn; ring.
Qed.
Lemma vjp_rr_is cplx rows w c k : cplx k = false -> Forall (fun o : vec => snd (o k) = 0) rows ->
  vjp_rr cplx rows w c k = if c then dagger_times rows w k else conj (dagger_times rows w k).
Proof.
  intros Hk Hr. unfold vjp_rr, pull, re_list, im_list, neg_list, dagger_times.
  assert (E : forall P : list (cpx * vec), Forall (fun p => snd (snd p k) = 0) P ->
    (keep false (lsum cC (map (fun p => ((fst (fst p), 0%R) * snd p k)%C) P))
      + imul (keep false (lsum cC (map (fun p => (ropp cC (snd (fst p), 0%R) * snd p k)%C) P))))%C
    = conj (lsum cC (map (fun p => (conj (snd p k) * fst p)%C) P))).
  { induction P as [|p P IH]; intros H; [cbn; unfold imul; cpx; cbn; ring|]. inversion H as [|x y Hp HP]; subst x y. specialize (IH HP). cbn [map lsum]. rewrite !keep_add.
    assert (C : forall a b : cpx, conj (a + b)%C = (conj a + conj b)%C) by (intros; cpx; ring). rewrite C, <- IH.
    generalize (keep false (lsum cC (map (fun p => ((fst (fst p), 0%R) * snd p k)%C) P))).
    generalize (keep false (lsum cC (map (fun p => (ropp cC (snd (fst p), 0%R) * snd p k)%C) P))).
    intros A1 A2. destruct p as [z o]. cbn [fst snd] in *. destruct (o k) as [o1 o2], z as [z1 z2]. cbn in Hp. subst o2. unfold keep, imul. cpx; cbn; ring. }
  assert (HP : Forall (fun p : cpx * vec => snd (snd p k) = 0) (combine w rows)).
  { apply Forall_forall. intros [z o] Hin. cbn. apply in_combine_r in Hin. rewrite Forall_forall in Hr. apply Hr, Hin. }
  specialize (E _ HP). destruct c; cbv beta zeta; rewrite !map_map, !combine_map1, !map_map, Hk; cbn [fst snd]; [|exact E].
  set (S1 := lsum cC (map (fun p => ((fst (fst p), 0%R) * snd p k)%C) (combine w rows))) in E.
  set (S2 := lsum cC (map (fun p => (ropp cC (snd (fst p), 0%R) * snd p k)%C) (combine w rows))) in E.
  change (keep false S1 - imul (keep false S2) = lsum cC (map (fun p => conj (snd p k) * fst p) (combine w rows)))%C.
  transitivity (conj (conj (lsum cC (map (fun p => (conj (snd p k) * fst p)%C) (combine w rows))))); [|apply (cr_conj_conj cC cC_laws)].
  rewrite <- E. generalize S1 S2. intros A1 A2. unfold keep, imul. cpx; cbn; ring.
Qed.
Lemma pull_conj cplx rows w k : pull cplx rows (map conj w) k = keep (cplx k) (conj (dagger_times rows w k)).
Proof.
  unfold pull, dagger_times. rewrite combine_map1, map_map, conj_lsum. f_equal. f_equal. apply map_ext. intros [z o]. cbn [fst snd].
  rewrite (cr_conj_mul cC cC_laws), (cr_conj_conj cC cC_laws). ring.
Qed.
(** real parameters, of any machine; or complex ones of a holomorphic machine *)
Theorem vjp_right cplx n out_c rows vec_c w c :
  (out_c = false -> forall k, (k < n)%nat -> Forall (fun o : vec => snd (o k) = 0) rows) ->
  (any_complex cplx n = true -> out_c = true) ->
  exists x, vjp cplx n out_c rows vec_c w c = Ok x /\ forall k, (k < n)%nat ->
    (any_complex cplx n = true -> cplx k = true) ->
    x k = if c then dagger_times rows w k else conj (dagger_times rows w k).
Proof.
  intros Ho Hc. unfold vjp, vjp_cc. destruct (any_complex cplx n) eqn:E.
  - rewrite (Hc eq_refl). cbn [orb]. eexists. split; [reflexivity|]. intros k Hk Hck. specialize (Hck eq_refl).
    destruct c; cbv beta; rewrite pull_conj, Hck; cbn [keep]; [apply (cr_conj_conj cC cC_laws)|reflexivity].
  - eexists. split; [reflexivity|]. intros k Hk _. pose proof (proj1 (any_complex_false cplx n) E k Hk) as Ek.
    destruct (out_c || vec_c) eqn:Ed; [apply vjp_rc_is; exact Ek|]. apply orb_false_iff in Ed. destruct Ed as [-> _].
    apply vjp_rr_is; [exact Ek|apply Ho; [reflexivity|exact Hk]].
Qed.
(** ... of real and complex ones: the derivative by a real one is real *)
Lemma vjp_mixed cplx n rows vec_c w c : any_complex cplx n = true ->
  exists x, vjp cplx n true rows vec_c w c = Ok x /\ forall k, (k < n)%nat -> cplx k = false -> x k = (fst (dagger_times rows w k), 0).
Proof.
  intros E. unfold vjp, vjp_cc. rewrite E. cbn [orb]. eexists. split; [reflexivity|]. intros k _ Hk.
  destruct c; cbv beta; rewrite pull_conj, Hk; unfold keep; cpx; ring.
Qed.
Lemma vjp_c_to_r cplx n rows vec_c w c : any_complex cplx n = true ->
  vjp cplx n false rows vec_c w c = Err (if vec_c then TypeError else RuntimeError).
Proof. intros E. unfold vjp, vjp_cc. rewrite E. destruct vec_c; reflexivity. Qed.
Lemma grad_right cplx n out_c (o : vec) : (forall k, (k < n)%nat -> out_c = false -> snd (o k) = 0) ->
  match grad_of cplx n out_c o with
  | Ok g => (forall k, (k < n)%nat -> g k = o k) /\ ((forall k, (k < n)%nat -> cplx k = false) \/ (out_c = true /\ forall k, (k < n)%nat -> cplx k = true))
  | Err e => (exists k, (k < n)%nat /\ cplx k = true) /\
      (out_c = false /\ e = RuntimeError \/ out_c = true /\ e = TypeError /\ exists k, (k < n)%nat /\ cplx k = false)
  end.
Proof.
  intros Ho. unfold grad_of. destruct (any_complex cplx n) eqn:E.
  - assert (X : exists k, (k < n)%nat /\ cplx k = true).
    { unfold any_complex in E. apply existsb_exists in E. destruct E as (k & Hk & Ek). apply in_seq in Hk. exists k. split; [lia|exact Ek]. }
    destruct out_c; [|split; [exact X|left; auto]]. destruct (forallb cplx (seq 0 n)) eqn:F.
    + split; [reflexivity|]. right. split; [reflexivity|]. intros k Hk. rewrite forallb_forall in F. apply F, in_seq. lia.
    + split; [exact X|]. right. repeat split. clear -F.
      assert (G : forall l, forallb cplx l = false -> exists k, In k l /\ cplx k = false).
      { induction l as [|a l IH]; [discriminate|]. cbn. destruct (cplx a) eqn:Ea; [|intros _; exists a; auto]. intros H. destruct (IH H) as (k & Hk & E). exists k. auto. }
      destruct (G _ F) as (k & Hk & Ek). apply in_seq in Hk. exists k. split; [lia|exact Ek].
  - split; [|left; exact (proj1 (any_complex_false cplx n) E)]. intros k Hk. destruct out_c.
    + destruct (o k) as [a b]. unfold imul. cpx; cbn; ring.
    + specialize (Ho k Hk eq_refl). destruct (o k) as [a b]. cbn in *. rewrite Ho. reflexivity.
Qed.

(** ** a whole run *)
Section Runs.
  Variable cg : nat -> (vec -> vec) -> vec -> vec -> vec.
  Variable m : machine.
  Hypothesis Hcg : exact_cg (m_n m) (cg (m_n m)).
  Definition good_calls (calls : list (list (list vec) * vec)) : Prop := Forall (fun c => exists t, balanced t (fst c)) calls.

  Lemma natural_real n shift samples f x : natural n false shift samples f x -> real_vec n x.
  Proof. intros H i Hi. apply (H i Hi). Qed.
  Theorem run_explicit calls : forall s, sr_machine s = Some m -> 0 < sr_shift s -> start_fits false m (sr_x0 s) -> good_calls calls ->
    exists xs s', updates cg false s calls = Ok (xs, s') /\
      Forall2 (fun c x => natural (m_n m) (has_complex m) (sr_shift s) (concat (fst c)) (snd c) x) calls xs.
  Proof.
    induction calls as [|[ranks f] calls IH]; intros s Hm Hs S0 G; [exists [], s; split; [reflexivity|constructor]|].
    inversion G as [|x y [t B] G']; subst x y. cbn [fst] in B.
    destruct (explicit_update cg m s ranks t f Hm B Hs Hcg S0) as (x & Ex & Nx). cbn [updates]. rewrite Ex. cbn [bind fst snd].
    destruct (IH (SR (Some m) (Some (Flat (m_n m) x)) (sr_shift s)) eq_refl Hs) as (xs & s' & Es & Hall).
    - cbn. repeat split. intros Hc. rewrite Hc in Nx. exact (natural_real _ _ _ _ _ Nx).
    - exact G'.
    - rewrite Es. cbn [bind fst snd]. exists (x :: xs), s'. split; [reflexivity|]. constructor; [exact Nx|exact Hall].
  Qed.
  Theorem run_onthefly_complex calls : (forall k, (k < m_n m)%nat -> m_cplx m k = true) ->
    forall s, sr_machine s = Some m -> 0 < sr_shift s -> start_fits true m (sr_x0 s) -> good_calls calls -> (0 < m_n m)%nat ->
    exists xs s', updates cg true s calls = Ok (xs, s') /\
      Forall2 (fun c x => natural (m_n m) true (sr_shift s) (concat (fst c)) (snd c) x) calls xs.
  Proof.
    intros Hr. induction calls as [|[ranks f] calls IH]; intros s Hm Hs S0 G H0; [exists [], s; split; [reflexivity|constructor]|].
    inversion G as [|x y [t B] G']; subst x y. cbn [fst] in B.
    destruct (onthefly_complex cg m s ranks t f Hm B Hs Hcg Hr S0) as (x & Ex & Nx). cbn [updates]. rewrite Ex. cbn [bind fst snd].
    destruct (IH (SR (Some m) (Some (Tree (m_n m) x)) (sr_shift s)) eq_refl Hs) as (xs & s' & Es & Hall).
    - cbn. repeat split. intros Hc. pose proof (proj1 (any_complex_false _ _) Hc 0%nat H0) as E. rewrite (Hr 0%nat H0) in E. discriminate.
    - exact G'.
    - exact H0.
    - rewrite Es. cbn [bind fst snd]. exists (x :: xs), s'. split; [reflexivity|]. constructor; [exact Nx|exact Hall].
  Qed.
  Theorem run_onthefly_real calls : (forall k, (k < m_n m)%nat -> m_cplx m k = false) ->
    forall s, sr_machine s = Some m -> 0 < sr_shift s -> start_fits true m (sr_x0 s) -> good_calls calls ->
    exists xs s', updates cg true s calls = Ok (xs, s') /\
      Forall2 (fun c x => natural_phase (m_n m) (sr_shift s) (concat (fst c)) (snd c) x /\
        ((forall k, (k < m_n m)%nat -> snd (mean_of (concat (fst c)) k) = 0) -> natural (m_n m) false (sr_shift s) (concat (fst c)) (snd c) x)) calls xs.
  Proof.
    intros Hr. induction calls as [|[ranks f] calls IH]; intros s Hm Hs S0 G; [exists [], s; split; [reflexivity|constructor]|].
    inversion G as [|x y [t B] G']; subst x y. cbn [fst] in B.
    destruct (onthefly_real cg m s ranks t f Hm B Hs Hcg Hr S0) as (x & Ex & Nx & Rx). cbn [updates]. rewrite Ex. cbn [bind fst snd].
    destruct (IH (SR (Some m) (Some (Tree (m_n m) x)) (sr_shift s)) eq_refl Hs) as (xs & s' & Es & Hall).
    - cbn. repeat split. intros _. exact Rx.
    - exact G'.
    - rewrite Es. cbn [bind fst snd]. exists (x :: xs), s'. split; [reflexivity|]. constructor; [split; [exact Nx|]|exact Hall].
      intros Z. cbn [fst snd] in *. exact (phase_natural m s ranks f x Z Nx).
  Qed.
End Runs.

(** ** misuse *)
Lemma no_machine cg s ranks f : sr_machine s = None ->
  compute_update cg s ranks f = Err ValueError /\ compute_update_onthefly cg s ranks f = Err AttributeError.
Proof. intros H. unfold compute_update, compute_update_onthefly. rewrite H. split; reflexivity. Qed.
Lemma modes_exclude cg s ranks f x s' :
  (compute_update cg s ranks f = Ok (x, s') -> forall ranks' f', compute_update_onthefly cg s' ranks' f' = Err ValueError) /\
  (compute_update_onthefly cg s ranks f = Ok (x, s') -> forall ranks' f', compute_update cg s' ranks' f' = Err ValueError).
Proof.
  unfold compute_update, compute_update_onthefly. destruct (sr_machine s) as [m|]; [|split; discriminate]. split.
  - destruct (flat_start (m_n m) (sr_x0 s)); cbn [bind]; [|discriminate]. intros E ranks' f'. injection E as <- <-. reflexivity.
  - destruct (tree_start (m_n m) (sr_x0 s)); cbn [bind]; [|discriminate]. intros E ranks' f'. injection E as <- <-. reflexivity.
Qed.
Lemma other_machine cg s ranks f x s' m' : compute_update cg s ranks f = Ok (x, s') ->
  (forall m, sr_machine s = Some m -> m_n m <> m_n m') -> forall ranks' f', compute_update cg (setup s' m') ranks' f' = Err ValueError.
Proof.
  unfold compute_update at 1. destruct (sr_machine s) as [m|]; [|discriminate].
  destruct (flat_start (m_n m) (sr_x0 s)); cbn [bind]; [|discriminate]. intros E H ranks' f'. injection E as <- <-.
  unfold compute_update, setup. cbn [sr_machine sr_x0 flat_start]. destruct (Nat.eqb_spec (m_n m) (m_n m')) as [E|]; [|reflexivity].
  exfalso. exact (H m eq_refl E).
Qed.

(** ** options *)
Lemma options_accept n_nodes mpi4jax m name shift it :
  (exists s, make n_nodes mpi4jax m name shift it = Ok s) <->
  ((n_nodes <= 1)%nat \/ mpi4jax = true) /\ (name = Some "cg"%string \/ (name = None /\ it = true)).
Proof.
  unfold make. destruct ((1 <? n_nodes)%nat && negb mpi4jax) eqn:E0.
  - split; [intros [s H]; discriminate|]. intros [H _]. apply andb_true_iff in E0. destruct E0 as [E1 E2]. apply Nat.ltb_lt in E1. destruct H as [H| ->]; [lia|discriminate].
  - assert (D : (n_nodes <= 1)%nat \/ mpi4jax = true).
    { apply andb_false_iff in E0. destruct E0 as [E|E]; [left; apply Nat.ltb_ge in E; exact E|right; destruct mpi4jax; [reflexivity|discriminate]]. }
    destruct name as [name|].
    + unfold init_solver. destruct (string_dec name "cg") as [->|Ne].
      * cbn. split; [intros _; auto|]. intros _. eexists. reflexivity.
      * split; [|intros [_ [H|[H _]]]; [injection H as ->; congruence|discriminate]].
        intros [s H]. exfalso. revert H. unfold str_in. cbn [existsb].
        destruct (String.eqb_spec name "cg") as [->|_]; [congruence|]. rewrite !orb_false_r.
        destruct (String.eqb_spec name "gmres"%string) as [->|_]; [cbn; discriminate|].
        destruct (String.eqb_spec name "minres"%string) as [->|_]; [cbn; discriminate|].
        destruct (String.eqb_spec name "jaxcg"%string) as [->|_]; [cbn; discriminate|].
        cbn [orb]. destruct (String.eqb name "ColPivHouseholder" || (String.eqb name "QR" || (String.eqb name "SVD" || String.eqb name "Cholesky"))); [discriminate|].
        destruct it; discriminate.
    + cbn. destruct it; cbn.
      * split; [intros _; auto|]. intros _. eexists. reflexivity.
      * split; [intros [s H]; discriminate|]. intros [_ [H|[_ H]]]; discriminate.
Qed.
Lemma options_errors m shift it :
  (forall name, In name ["gmres"; "minres"]%string -> make 1 true m (Some name) shift it = Err Exception_) /\
  make 1 true m (Some "jaxcg"%string) shift it = Err RuntimeError /\
  (forall name, In name ["ColPivHouseholder"; "QR"; "SVD"; "Cholesky"]%string -> make 1 true m (Some name) shift it = Err NotImplementedError).
Proof.
  split; [|split; [reflexivity|]].
  - intros name H. cbn in H. destruct H as [<-|[<-|[]]]; reflexivity.
  - intros name H. cbn in H. destruct H as [<-|[<-|[<-|[<-|[]]]]]; reflexivity.
Qed.
