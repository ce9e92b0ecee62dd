From Coq Require Import List Arith ZArith Lia Bool Reals Lra.
From Verif Require Import Base Rings ARNN_Model ARNN_Proofs ToArray_Model Estim_Model Estim_Spec Estim_Proofs
  Balance_Spec Balance_Proofs LegQsr_Model LegQsr_Spec LegQsr_Proofs LegQsr_Step LegQsr_Final LegQsr_Nll
  LegVmc_Model LegVmc_Spec LegVmc_Proofs LegVmc_Mean LegVmc_Random LegVmc_Final.
Import ListNotations.
Open Scope R_scope.

(** ** estimate_expectations *)
Lemma estimate_main N O conn m n batch ranks : describes N O conn -> (0 < n)%nat -> (0 < batch)%nat ->
  Forall (shape N n batch) ranks -> ranks <> [] ->
  fst (estimate_expectations m conn n ranks) = caverage (local_of N O (q_log m)) (all_of ranks) /\
  sum_ranks (q_npar m) (snd (estimate_expectations m conn n ranks))
  = map (fun k => rscal (INR (length ranks * batch)) (covariance (fun s => entry (q_der m s) k) (local_of N O (q_log m)) (all_of ranks)))
      (seq 0 (q_npar m)).
Proof.
  intros HC Hn Hb F Hr. unfold estimate_expectations. cbn [fst snd].
  set (El := fun s => local_value (q_log m) s (conn s)). set (Lo := local_of N O (q_log m)).
  assert (EE : forall s, In s (all_of ranks) -> El s = Lo s).
  { intros s Hs. exact (local_eq N O conn m HC s (in_range N n batch ranks s F Hs)). }
  assert (EM : mean_all (map (local_values m conn) ranks) = caverage El (all_of ranks)) by exact (mean_local N n batch m conn Hn Hb ranks F).
  rewrite EM. split; [apply caverage_ext, EE|].
  etransitivity; [exact (grads_is n batch m conn Hn Hb (fun e => rscal (/ INR n) (e - caverage El (all_of ranks))%C) ranks)|].
  apply map_ext. intros k. fold El.
  rewrite (covariance_ext (fun s => entry (q_der m s) k) Lo (fun s => entry (q_der m s) k) El); [|reflexivity|intros s Hs; symmetry; apply EE, Hs].
  assert (L : length (all_of ranks) = (length ranks * n * batch)%nat) by exact (all_length N n batch Hn Hb ranks F).
  rewrite <- caverage_covariance.
  2:{ intros E0. rewrite E0 in L. cbn in L. destruct ranks; [contradiction|cbn in L; nia]. }
  rewrite (map_ext _ (fun s => rscal (/ INR n) (conj (entry (q_der m s) k) * (El s - caverage El (all_of ranks)))%C)).
  2:{ intros s. unfold rscal. unfold El. cpx; ring. }
  rewrite lsum_scaled. generalize (caverage El (all_of ranks)). intros c. rewrite caverage_scal, L, !mult_INR. unfold rscal. cbn [fst snd].
  assert (INR n <> 0) by (apply not_0_INR; lia). assert (INR batch <> 0) by (apply not_0_INR; lia).
  assert (INR (length ranks) <> 0) by (apply not_0_INR; destruct ranks; [contradiction|discriminate]).
  match goal with |- context [fst ?x] => generalize (fst x); generalize (snd x) end. intros y x.
  apply (f_equal2 pair); field; auto.
Qed.
Lemma sum_single n (d : list cpx) : length d = n -> sum_ranks n [d] = d.
Proof.
  intros <-. unfold sum_ranks. apply (@nth_ext cpx _ _ (0, 0) (0, 0)); [rewrite map_length, seq_length; reflexivity|].
  intros k Hk. rewrite map_length, seq_length in Hk.
  pose proof (entry_map_seq (fun k => lsum cC (map (fun r => entry r k) [d])) (length d) k Hk) as E. unfold entry in E at 1.
  etransitivity; [exact E|]. cbn [map lsum]. unfold entry. destruct (nth k d (0, 0)). cbn. f_equal; ring.
Qed.
Lemma discard_main n d : d <> 0%Z -> estimate_discard n (Some d) = d /\ estimate_discard n None = (n / 10)%Z.
Proof. intros H. unfold estimate_discard. destruct (Z.eqb_spec d 0); [contradiction|]. split; reflexivity. Qed.

(** ** sizes *)
Lemma vmc_sizes_main n_samples n_discard batch nodes z : (0 < batch)%Z -> (0 < nodes)%Z ->
  vmc_sizes n_samples n_discard batch nodes = Ok z ->
  (v_total z = v_node z * batch * nodes)%Z /\ (n_samples <= v_total z < n_samples + batch * nodes)%Z /\
  v_discard z = match n_discard with Some d => d | None => (v_node z * batch / 10)%Z end.
Proof.
  intros Hb Hn E. unfold vmc_sizes in E. destruct (n_samples <=? 0)%Z; [discriminate|].
  assert (B : (n_samples <= per_node n_samples batch nodes * batch * nodes < n_samples + batch * nodes)%Z).
  { unfold per_node. pose proof (zceil_spec n_samples batch Hb). pose proof (zceil_spec (zceil n_samples batch) nodes Hn). nia. }
  destruct n_discard as [d|]; [destruct (d <? 0)%Z; [discriminate|]|]; injection E as <-; cbn [v_node v_total v_discard]; auto.
Qed.
Lemma vmc_sizes_errors n_samples n_discard batch nodes :
  vmc_sizes n_samples n_discard batch nodes = Err ValueError <->
  (n_samples <= 0)%Z \/ (exists d, n_discard = Some d /\ (d < 0)%Z).
Proof.
  unfold vmc_sizes. destruct (Z.leb_spec n_samples 0); [split; auto|]. destruct n_discard as [d|].
  - destruct (Z.ltb_spec d 0).
    + split; [intros _; right; exists d; auto|reflexivity].
    + split; [discriminate|]. intros [H1|(d' & E & H1)]; [lia|injection E as <-; lia].
  - split; [discriminate|]. intros [H1|(d' & E & H1)]; [lia|discriminate].
Qed.
Lemma steady_sizes_main n_samples n_discard batch nodes b_obs n_obs d_obs z zo :
  vmc_sizes n_samples n_discard batch nodes = Ok z -> vmc_sizes n_obs d_obs b_obs nodes = Ok zo ->
  steady_sizes n_samples n_discard batch nodes (Some (b_obs, Some n_obs, d_obs)) = Ok (z, Some zo) /\
  diagonal_sweeps (z, Some zo) = Ok (v_discard z, v_node zo).
Proof. intros E1 E2. unfold steady_sizes, obs_sizes. rewrite E1. cbn [bind]. rewrite E2. split; reflexivity. Qed.
Lemma steady_default n_samples n_discard batch nodes b_obs d_obs z : vmc_sizes n_samples n_discard batch nodes = Ok z ->
  steady_sizes n_samples n_discard batch nodes (Some (b_obs, None, d_obs)) = Err TypeError /\
  steady_sizes n_samples n_discard batch nodes None = Ok (z, None) /\ diagonal_sweeps (z, None) = Err AttributeError.
Proof. intros E. unfold steady_sizes. rewrite E. repeat split. Qed.

(** ** two states, all amplitudes one, one parameter *)
Definition two_O (s t : nat) : cpx := if (s =? t)%nat then (INR s, 0) else (0, 0).
Definition two_conn : conn_of := fun s => [(s, (INR s, 0))].
Lemma two_describes N : describes N two_O two_conn.
Proof.
  intros s Hs. split; [constructor; [exact Hs|constructor]|]. intros t Ht. unfold two_conn, two_O. cbn [filter fst].
  destruct (Nat.eqb_spec s t) as [->|H]; cbn; [f_equal; ring|reflexivity].
Qed.
Lemma two_hermitian N : hermitian N two_O.
Proof.
  intros s t _ _. unfold two_O. rewrite (Nat.eqb_sym t s). destruct (Nat.eqb_spec s t) as [->|H]; cbn; f_equal; ring.
Qed.
Lemma two_local s : local_value (q_log ex_mach) s (two_conn s) = (INR s, 0).
Proof.
  unfold local_value, two_conn, ex_mach. cbn [q_log map lsum fst snd]. unfold cexp. cbn [cC rsub radd rmul r0 fst snd].
  rewrite Rminus_0_r, exp_0, cos_0, sin_0. f_equal; ring.
Qed.
Lemma two_values : 
  snd (estimate_expectations ex_mach two_conn 1 [[[0%nat; 1%nat]]]) = [[(1 / 2, 0)]] /\
  covariance (fun s => entry (q_der ex_mach s) 0) (local_of 2 two_O (q_log ex_mach)) [0%nat; 1%nat] = (1 / 4, 0).
Proof.
  assert (S1 : Forall (shape 2 1 2) [[[0%nat; 1%nat]]]).
  { repeat constructor. }
  pose proof (estimate_main 2 two_O two_conn ex_mach 1 2 [[[0%nat; 1%nat]]] (two_describes 2) ltac:(lia) ltac:(lia) S1 ltac:(discriminate)) as [_ E].
  assert (C : covariance (fun s => entry (q_der ex_mach s) 0) (local_of 2 two_O (q_log ex_mach)) [0%nat; 1%nat] = (1 / 4, 0)).
  { rewrite (covariance_ext _ _ (fun s => (INR s, 1)) (fun s => (INR s, 0))).
    - unfold covariance, caverage, average, rsum. cbn [cC rsub rmul rconj fst snd length INR]. f_equal; field.
    - intros s _. reflexivity.
    - intros s Hs. rewrite <- two_local. symmetry. apply (local_eq 2 two_O two_conn ex_mach (two_describes 2)).
      destruct Hs as [<-|[<-|[]]]; lia. }
  split; [|exact C].
  assert (L : snd (estimate_expectations ex_mach two_conn 1 [[[0%nat; 1%nat]]]) = [sum_ranks 1 (snd (estimate_expectations ex_mach two_conn 1 [[[0%nat; 1%nat]]]))]).
  { unfold estimate_expectations. cbn [snd map combine]. rewrite sum_single; [reflexivity|]. reflexivity. }
  rewrite L. etransitivity; [apply (f_equal (fun d => [d]) E)|]. unfold all_of. cbn [flat_map concat app map seq q_npar ex_mach].
  f_equal. f_equal. etransitivity; [exact (f_equal (rscal (INR (1 * 2))) C)|].
  unfold rscal. cbn [fst snd Nat.mul Nat.add INR]. f_equal; field.
Qed.

Definition ex_samples : list batches := [[[0%nat; 1%nat]; [1%nat; 1%nat]]; [[0%nat; 0%nat]; [1%nat; 0%nat]]].
Lemma ex_shape : Forall (shape 2 2 2) ex_samples /\ all_of ex_samples = [0; 1; 1; 1; 0; 0; 1; 0]%nat.
Proof. split; [|reflexivity]. repeat constructor. Qed.
Lemma ex_exact s : (s < 2)%nat -> fraction (all_of ex_samples) s = born 2 (psi_of (q_log ex_mach)) s.
Proof.
  intros Hs. rewrite ex_born. destruct s as [|[|s]]; [| |lia]; unfold fraction; cbn [all_of ex_samples flat_map concat app count_occ Nat.eq_dec length];
    cbn; field.
Qed.
Definition ex_outcomes : list (R * list batches) :=
  map (fun p => (/ 4, [[[fst p]; [snd p]]])) [(0, 0); (0, 1); (1, 0); (1, 1)]%nat.
Lemma ex_outcomes_shape : Forall (fun o => length (snd o) = 1%nat /\ Forall (shape 2 2 1) (snd o)) ex_outcomes.
Proof. apply Forall_forall. intros o Ho. repeat (destruct Ho as [<-|Ho]; [split; [reflexivity|repeat constructor]|]). destruct Ho. Qed.
Lemma ex_independent : independent 2 2 (q_log ex_mach) ex_outcomes.
Proof.
  split.
  - intros i s Hi Hs. rewrite ex_born. destruct i as [|[|i]]; [| |lia]; (destruct s as [|[|s]]; [| |lia]);
      unfold probability, ex_outcomes, position, all_of; cbn; field.
  - intros i j s t Hi Hj Hij Hs Ht. rewrite !ex_born.
    destruct i as [|[|i]]; [| |lia]; (destruct j as [|[|j]]; [| |lia]); try (exfalso; apply Hij; reflexivity);
    (destruct s as [|[|s]]; [| |lia]); (destruct t as [|[|t]]; [| |lia]);
      unfold probability, ex_outcomes, position, all_of; cbn; field.
Qed.
Lemma two_shape : shape 2 1 2 [[0%nat; 1%nat]].
Proof. repeat constructor. Qed.
Lemma discard_zero : exists n d, estimate_discard n (Some d) <> d.
Proof. exists 100%Z, 0%Z. intro E. vm_compute in E. discriminate E. Qed.
