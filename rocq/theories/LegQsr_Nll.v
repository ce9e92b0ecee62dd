From Coq Require Import List Arith ZArith Lia Bool Reals Lra.
From Verif Require Import Base Rings ARNN_Model ARNN_Proofs ToArray_Model Estim_Model Estim_Spec Estim_Proofs
  Balance_Spec Balance_Proofs LegQsr_Model LegQsr_Spec LegQsr_Proofs LegQsr_Step LegQsr_Final.
Import ListNotations.
Open Scope R_scope.

Section Nll.
  Variables (N : nat) (U : nat -> nat -> nat -> cpx) (rots : list conn_of) (m : qmach) (ts bs : list nat).
  Hypothesis HR : rotations N U rots.
  Hypothesis HT : training_set N rots ts bs.
  Lemma in_training d : In d (combine ts bs) ->
    (fst d < N)%nat /\ exists conn, nth_error rots (snd d) = Some conn /\ describes N (U (snd d)) conn.
  Proof.
    intros Hd. destruct HT as (E & F1 & F2). rewrite Forall_forall in F1, F2. destruct d as [x b]. cbn [fst snd].
    pose proof (F1 x (in_combine_l _ _ _ _ Hd)) as Hx. pose proof (F2 b (in_combine_r _ _ _ _ Hd)) as Hb. split; [exact Hx|].
    exists (nth b rots (fun _ => [])). split; [apply nth_error_nth'; exact Hb|]. apply HR. apply nth_error_nth'; exact Hb.
  Qed.
  Lemma combine_conn' (conn : conn_of) x (h : cpx * cpx -> cpx) :
    map h (combine (map snd (conn x)) (map (fun c => q_log m (fst c)) (conn x))) = map (fun c => h (snd c, q_log m (fst c))) (conn x).
  Proof. induction (conn x) as [|c l IH]; [reflexivity|]. cbn [map combine]. rewrite IH. reflexivity. Qed.
  Lemma nll_term_value d conn : nth_error rots (snd d) = Some conn -> (fst d < N)%nat -> conn (fst d) <> [] ->
    nll_term m rots (fst d) (snd d) =
      Ok (if Req_EM_T (cnorm2 (measured N U (q_log m) d)) 0 then None else Some (ln (cnorm2 (measured N U (q_log m) d)))).
  Proof.
    intros Ec Hx Hne. unfold nll_term. rewrite Ec. pose proof (HR _ _ Ec) as D.
    assert (M : exists mx, max_real (map (fun c => q_log m (fst c)) (conn (fst d))) = Ok mx).
    { destruct (conn (fst d)); [contradiction|]. eexists. reflexivity. }
    destruct M as [mx Em]. rewrite Em. cbn [bind]. rewrite combine_conn'. cbn [fst snd].
    assert (E : lsum cC (map (fun c => snd c * cexp (rsub cC (q_log m (fst c)) (mx, 0)))%C (conn (fst d)))
      = (measured N U (q_log m) d * cexp (ropp cC (mx, 0)))%C).
    { unfold measured. rewrite <- (amplitude_sum N (U (snd d)) conn m (fst d) D Hx), <- lsum_mul_r. apply lsum_ext'. intros c _.
      rewrite shifted. ring. }
    rewrite E. f_equal. set (A := measured N U (q_log m) d). pose proof (unit_norm mx) as Hu.
    destruct (Req_EM_T (cnorm2 A) 0) as [Z|Z].
    - apply cnorm2_zero in Z. rewrite Z. rewrite (proj2 (czero_spec _)); [reflexivity|]. cpx; cbn [fst snd]; ring.
    - rewrite czero_false by (rewrite cnorm2_mul; nra). f_equal. rewrite cnorm2_mul, cexp_norm, <- exp_plus.
      assert (0 < cnorm2 A) by (unfold cnorm2 in *; nra).
      rewrite ln_mult by (try apply exp_pos; assumption). rewrite ln_exp. cbn [cC ropp fst snd]. ring.
  Qed.
  Lemma fold_sub l a : fold_left (fun a t => a - t) l a = a - rsum (fun t => t) l.
  Proof. revert a. induction l as [|t l IH]; intros a; cbn [fold_left rsum]; [ring|]. rewrite IH. ring. Qed.
  Lemma nll_value L : ts <> [] -> (forall d, In d (combine ts bs) -> cnorm2 (measured N U (q_log m) d) <> 0) ->
    nll m rots ts bs L = Ok (Some (L - average (fun d => ln (cnorm2 (measured N U (q_log m) d))) (combine ts bs))).
  Proof.
    intros Hts HA. unfold nll.
    rewrite (sequence_map _ (fun d => Some (ln (cnorm2 (measured N U (q_log m) d))))).
    - cbn [bind]. destruct ts as [|t0 l0] eqn:Et; [contradiction|]. rewrite <- Et in *. f_equal.
      rewrite all_some_map. cbn [option_map]. f_equal. rewrite fold_sub, rsum_map. unfold average.
      rewrite combine_length. destruct HT as (E & _). rewrite E, Nat.min_id. unfold Rdiv. ring.
    - intros d Hd. destruct (in_training d Hd) as (Hx & conn & Ec & D).
      rewrite (nll_term_value d conn Ec Hx).
      + destruct (Req_EM_T (cnorm2 (measured N U (q_log m) d)) 0) as [Z|Z]; [contradiction (HA d Hd Z)|reflexivity].
      + apply (nonempty N (U (snd d)) conn m (fst d) D Hx). exact (HA d Hd).
  Qed.
  Lemma nll_likelihood : (0 < N)%nat -> ts <> [] -> (forall d, In d (combine ts bs) -> cnorm2 (measured N U (q_log m) d) <> 0) ->
    nll m rots ts bs (ln (norm2_of N (psi_of (q_log m)))) = Ok (Some (neg_log_likelihood N U (q_log m) (combine ts bs))).
  Proof.
    intros HN Hts HA. rewrite nll_value by assumption. f_equal. f_equal. unfold neg_log_likelihood.
    pose proof (norm2_pos N (q_log m) HN) as P.
    rewrite (average_ext (fun d => ln (chance N U (q_log m) d)) (fun d => ln (cnorm2 (measured N U (q_log m) d)) - ln (norm2_of N (psi_of (q_log m))))).
    - unfold average. rewrite rsum_minus, rsum_cst.
      assert (INR (length (combine ts bs)) <> 0).
      { apply not_0_INR. rewrite combine_length. destruct HT as (E & _). rewrite E, Nat.min_id. destruct ts; [contradiction|discriminate]. }
      field. assumption.
    - intros d Hd. unfold chance, Rdiv. pose proof (HA d Hd) as Z.
      assert (0 < cnorm2 (measured N U (q_log m) d)) by (unfold cnorm2 in *; nra).
      rewrite ln_mult by (try apply Rinv_0_lt_compat; assumption). rewrite ln_Rinv by assumption. ring.
  Qed.
  Lemma nll_infinite L d : (forall e conn, In e (combine ts bs) -> nth_error rots (snd e) = Some conn -> conn (fst e) <> []) ->
    In d (combine ts bs) -> cnorm2 (measured N U (q_log m) d) = 0 -> nll m rots ts bs L = Ok None.
  Proof.
    intros Hne Hd Z. unfold nll.
    rewrite (sequence_map _ (fun d => if Req_EM_T (cnorm2 (measured N U (q_log m) d)) 0 then None else Some (ln (cnorm2 (measured N U (q_log m) d))))).
    - cbn [bind]. destruct ts as [|t0 l0] eqn:Et; [destruct Hd|]. rewrite <- Et in *. f_equal.
      rewrite all_some_none; [reflexivity|]. apply in_map_iff. exists d. split; [|exact Hd].
      destruct (Req_EM_T (cnorm2 (measured N U (q_log m) d)) 0); [reflexivity|contradiction].
    - intros e He. destruct (in_training e He) as (Hx & conn & Ec & D). apply nll_term_value with conn; auto.
  Qed.
End Nll.

(** ** Born probabilities in a rotated basis *)
Lemma measured_norm N O psi : unitary N O ->
  fsum rR N (fun x => cnorm2 (apply_op N O psi x)) = norm2_of N psi.
Proof.
  intros HU. enough (E : emb (fsum rR N (fun x => cnorm2 (apply_op N O psi x))) = emb (norm2_of N psi)) by (injection E; auto).
  rewrite norm2_emb, emb_fsum.
  transitivity (braket N (apply_op N O psi) (apply_op N O psi)).
  { unfold braket. apply fsum_ext. intros x _. apply cnorm2_conj. }
  rewrite braket_dagger. unfold braket. apply fsum_ext. intros s Hs. f_equal. unfold apply_op, dagger_times.
  transitivity (fsum cC N (fun t => if (t =? s)%nat then psi t else r0 cC)).
  - apply fsum_ext. intros t Ht. rewrite (HU s t Hs Ht). rewrite Nat.eqb_sym. destruct (t =? s)%nat.
    + cpx; cbn [fst snd]; ring.
    + cpx; cbn [fst snd]; ring.
  - apply (fsum_delta cC cC_laws N psi s Hs).
Qed.
Lemma fsum_rsum N f : fsum rR N f = rsum f (seq 0 N).
Proof.
  induction N as [|n IH]; [reflexivity|]. rewrite seq_S, rsum_app. cbn [fsum rsum Nat.add]. rewrite IH.
  change (radd rR ?a ?b) with (a + b). match goal with |- ?a = ?b => change (@eq R a b) end; ring.
Qed.
Lemma rsum_ge0 {X} (f : X -> R) l : (forall x, In x l -> 0 <= f x) -> 0 <= rsum f l.
Proof.
  induction l as [|x l IH]; intros H; cbn [rsum]; [lra|]. pose proof (H x (or_introl eq_refl)).
  assert (0 <= rsum f l) by (apply IH; intros y Hy; apply H; right; exact Hy). lra.
Qed.
Lemma rsum_part {X} (f : X -> R) l x : (forall y, In y l -> 0 <= f y) -> In x l -> f x <= rsum f l.
Proof.
  induction l as [|y l IH]; intros H Hx; [destruct Hx|]. cbn [rsum].
  pose proof (H y (or_introl eq_refl)) as Hy. assert (Hl : forall z, In z l -> 0 <= f z) by (intros z Hz; apply H; right; exact Hz).
  destruct Hx as [->|Hx]; [pose proof (rsum_ge0 f l Hl); lra|]. specialize (IH Hl Hx). lra.
Qed.
Lemma chances N U b log_psi : (0 < N)%nat -> unitary N (U b) ->
  rsum (fun x => chance N U log_psi (x, b)) (seq 0 N) = 1 /\
  (forall x, (x < N)%nat -> 0 <= chance N U log_psi (x, b) <= 1).
Proof.
  intros HN HU. pose proof (norm2_pos N log_psi HN) as P.
  assert (S1 : rsum (fun x => chance N U log_psi (x, b)) (seq 0 N) = 1).
  { unfold chance, Rdiv.
    rewrite (rsum_ext _ (fun x => / norm2_of N (psi_of log_psi) * cnorm2 (apply_op N (U b) (psi_of log_psi) x))).
    - rewrite rsum_scal, <- fsum_rsum, measured_norm by exact HU. field. lra.
    - intros x _. unfold measured. cbn [fst snd]. ring. }
  assert (NN : forall x, 0 <= chance N U log_psi (x, b)).
  { intros x. unfold chance. apply Rmult_le_pos; [unfold cnorm2; nra|]. left. apply Rinv_0_lt_compat, P. }
  split; [exact S1|]. intros x Hx. split; [apply NN|]. rewrite <- S1.
  apply (rsum_part (fun x => chance N U log_psi (x, b))); [intros; apply NN|apply in_seq; lia].
Qed.
Lemma nll_nonneg N U log_psi data : (0 < N)%nat ->
  (forall d, In d data -> unitary N (U (snd d)) /\ (fst d < N)%nat) -> 0 <= neg_log_likelihood N U log_psi data.
Proof.
  intros HN H. unfold neg_log_likelihood, average.
  assert (A : 0 <= rsum (fun d => - ln (chance N U log_psi d)) data).
  { apply rsum_ge0. intros [x b] Hd. destruct (H _ Hd) as [HU Hx]. cbn [fst snd] in *.
    destruct (chances N U b log_psi HN HU) as [_ C]. destruct (C x Hx) as [C0 C1].
    destruct (Req_dec (chance N U log_psi (x, b)) 0) as [->|Z].
    - unfold ln. destruct (Rlt_dec 0 0) as [B|B]; [exfalso; lra|]. rewrite Ropp_0. apply Rle_refl.
    - destruct (Req_dec (chance N U log_psi (x, b)) 1) as [->|Z1]; [rewrite ln_1; lra|].
      assert (ln (chance N U log_psi (x, b)) < ln 1) by (apply ln_increasing; lra). rewrite ln_1 in *. lra. }
  assert (A' : rsum (fun d => - ln (chance N U log_psi d)) data = -1 * rsum (fun d => ln (chance N U log_psi d)) data).
  { rewrite <- rsum_scal. apply rsum_ext. intros. ring. }
  rewrite A' in A. clear A'.
  destruct data as [|d data]; [cbn [rsum length]; unfold Rdiv; lra|].
  assert (0 < INR (length (d :: data))) by (apply lt_0_INR; cbn; lia).
  assert (0 < / INR (length (d :: data))) by (apply Rinv_0_lt_compat; assumption).
  unfold Rdiv. nra.
Qed.

(** ** a measurement that the state excludes *)
Lemma step_nan N U rots m ts bs n batch k ranks d : rotations N U rots -> training_set N rots ts bs -> q_writes m = true ->
  (0 < n)%nat -> (0 < batch)%nat -> (0 < k)%nat ->
  Forall (shaped N n batch k ts) ranks ->
  (forall e conn, In e (all_drawn ts bs ranks) -> nth_error rots (snd e) = Some conn -> conn (fst e) <> []) ->
  In d (all_drawn ts bs ranks) -> cnorm2 (measured N U (q_log m) d) = 0 ->
  step m rots ts bs batch None ranks = Ok None.
Proof.
  intros HR HT HW Hn Hb Hk HS Hne Hd Z. unfold step.
  assert (G : forall r, In r ranks -> exists p, positive m rots ts bs r = Ok p /\
     ((exists i, In i (i_ind r) /\ cnorm2 (measured N U (q_log m) (pick ts bs i)) = 0) -> p = None)).
  { intros r Hr. rewrite Forall_forall in HS. pose proof (HS r Hr) as S.
    assert (DR : forall i, In i (i_ind r) -> In (pick ts bs i) (all_drawn ts bs ranks)).
    { intros i Hi. unfold all_drawn. apply in_flat_map. exists r. split; [exact Hr|]. apply in_map, Hi. }
    destruct (Exists_dec (fun i => cnorm2 (measured N U (q_log m) (pick ts bs i)) = 0) (i_ind r)) as [Ex|Ex].
    { intros i. destruct (Req_EM_T (cnorm2 (measured N U (q_log m) (pick ts bs i))) 0); [left|right]; assumption. }
    - apply Exists_exists in Ex. destruct Ex as (i & Hi & Zi). exists None. split; [|intros _; reflexivity].
      assert (Fi : (i < length ts)%nat). { destruct S as (_ & _ & _ & F & _). rewrite Forall_forall in F. apply F, Hi. }
      destruct (drawn_ok N U rots m ts bs HR HT n batch k Hn Hb Hk i Fi) as (Hx & conn & Ec & _).
      apply (positive_nan N U rots m ts bs HR HT HW n batch k Hn Hb Hk r i conn S Hi); auto.

    - eexists. split; [apply (positive_value N U rots m ts bs HR HT HW n batch k Hn Hb Hk r S)|].
      + intros i Hi Zi. apply Ex, Exists_exists. exists i. auto.
      + intros (i & Hi & Zi). exfalso. apply Ex, Exists_exists. exists i. auto. }
  assert (H : exists ps, sequence (map (positive m rots ts bs) ranks) = Ok ps /\ In None ps).
  { unfold all_drawn in Hd. apply in_flat_map in Hd. destruct Hd as (r & Hr & Hd). apply in_map_iff in Hd. destruct Hd as (i & <- & Hi).
    clear HS Hne. induction ranks as [|r' l IH]; [destruct Hr|]. cbn [map sequence].
    destruct (G r' (or_introl eq_refl)) as (p & Ep & Hp). rewrite Ep. cbn [bind].
    destruct Hr as [->|Hr].
    - assert (Q : exists ps, sequence (map (positive m rots ts bs) l) = Ok ps).
      { clear - G. assert (G' : forall r, In r l -> exists p, positive m rots ts bs r = Ok p).
        { intros r0 H0. destruct (G r0 (or_intror H0)) as (p & Ep & _). exists p. exact Ep. }
        clear G. induction l as [|a l IH]; [eexists; reflexivity|]. cbn [map sequence].
        destruct (G' a (or_introl eq_refl)) as [p ->]. destruct IH as [q ->]; [intros; apply G'; right; assumption|]. eexists. reflexivity. }
      destruct Q as [q ->]. cbn [bind]. eexists. split; [reflexivity|]. left. apply Hp. exists i. auto.
    - assert (G' : forall r0, In r0 l -> exists p, positive m rots ts bs r0 = Ok p /\ ((exists i, In i (i_ind r0) /\ cnorm2 (measured N U (q_log m) (pick ts bs i)) = 0) -> p = None)) by (intros r0 H0; apply G; right; exact H0).
      destruct IH as (q & -> & Hq); auto. cbn [bind].
      eexists. split; [reflexivity|]. right. exact Hq. }
  destruct H as (ps & -> & Hps). cbn [bind]. unfold mean_opt at 2. rewrite all_some_none by exact Hps. cbn [option_map].
  unfold difference. destruct (mean_opt (q_npar m) (map (negative m batch) ranks)); reflexivity.
Qed.

(** ** sizes *)
Lemma zceil_spec a b : (0 < b)%Z -> (a <= zceil a b * b < a + b)%Z.
Proof. intros Hb. unfold zceil. pose proof (Z.div_mod (- a) b). pose proof (Z.mod_pos_bound (- a) b Hb). nia. Qed.
Lemma sizes_main n_samples n_data n_discard batch nodes z : (0 < batch)%Z -> (0 < nodes)%Z ->
  sizes n_samples n_data n_discard batch nodes = inl z ->
  (n_samples <= z_node z * batch * nodes < n_samples + batch * nodes)%Z /\
  (n_data <= z_data z * nodes < n_data + nodes)%Z /\
  z_discard z = match n_discard with Some d => d | None => (z_node z * batch / 10)%Z end.
Proof.
  intros Hb Hn. unfold sizes.
  destruct (n_samples <=? 0)%Z; [discriminate|].
  assert (E : (n_samples <= per_node n_samples batch nodes * batch * nodes < n_samples + batch * nodes)%Z).
  { unfold per_node. pose proof (zceil_spec n_samples batch Hb). pose proof (zceil_spec (zceil n_samples batch) nodes Hn). nia. }
  pose proof (zceil_spec n_data nodes Hn) as E2.
  destruct n_discard as [d|].
  - destruct (d <? 0)%Z; [discriminate|]. destruct (n_data <=? 0)%Z; [discriminate|]. intros H. injection H as <-. cbn. auto.
  - destruct (n_data <=? 0)%Z; [discriminate|]. intros H. injection H as <-. cbn. auto.
Qed.
Lemma sizes_errors n_samples n_data n_discard batch nodes e : sizes n_samples n_data n_discard batch nodes = inr e ->
  (e = QErr ValueError /\ ((n_samples <= 0)%Z \/ exists d, n_discard = Some d /\ (d < 0)%Z)) \/
  (e = QNameError /\ (n_data <= 0)%Z).
Proof.
  unfold sizes. destruct (Z.leb_spec n_samples 0); [intros E; injection E as <-; auto|].
  destruct n_discard as [d|]; [destruct (Z.ltb_spec d 0); [intros E; injection E as <-; left; eauto|]|];
    destruct (Z.leb_spec n_data 0); intros E; try discriminate; injection E as <-; auto.
Qed.

(** ** a machine whose product does not write into the array it is given *)
Definition id_conn : conn_of := fun s => [(s, (1, 0))].
Definition jax_machine : qmach := QMach 1 (fun _ => (0, 0)) (fun s => [(INR s, 0)]) false.
Lemma junk_step (d : cpx) : exists g h,
  step jax_machine [id_conn] [1%nat] [0%nat] 1 None [RankIn [[0%nat]] [0%nat] [Some [g]] [Some [h]]] = Ok (Some [d]).
Proof.
  exists (rscal (/ 2) d), (0, 0). unfold step. cbn [map sequence positive take_at i_ind i_data_grads nth_error bind combine fst snd].
  unfold rotated_grad. cbn [nth_error id_conn map kernel max_real fold_left bind combine fst snd].
  assert (Z : forall z out, (if czero z then None else Some z) = out -> True) by auto. clear Z.
  match goal with |- context [if czero ?z then None else Some ?v] => destruct (czero z) end;
  unfold mean_opt, mean_rows, difference, vjp, negative, jax_machine, rscal, entry, rsub, cC;
  cbn [map fst snd q_npar q_writes all_some option_map seq length INR nth lsum entry rscal difference i_samples i_grads combine vjp mean_opt mean_rows];
  cbn [cC radd rsub r0 fst snd]; destruct d as [d1 d2]; cbn [fst snd];
  unfold rscal; cbn [fst snd]; f_equal; f_equal; f_equal; f_equal; field.
Qed.

(** ** a concrete case: two states, the computational basis and a rotated one *)
Definition ex_U (b x s : nat) : cpx :=
  match b with
  | O => if (x =? s)%nat then (1, 0) else (0, 0)
  | _ => match x, s with
         | O, O => (3 / 5, 0) | O, 1%nat => (4 / 5, 0) | 1%nat, O => (4 / 5, 0) | 1%nat, 1%nat => (- (3 / 5), 0)
         | _, _ => (0, 0)
         end
  end.
Definition ex_rots : list conn_of := [id_conn; fun x => [(0%nat, ex_U 1 x 0); (1%nat, ex_U 1 x 1)]].
Definition ex_mach : qmach := QMach 1 (fun _ => (0, 0)) (fun s => [(INR s, 1)]) true.
Definition ex_ranks : list rank_in := [RankIn [[0%nat; 1%nat]; [1%nat; 1%nat]] [1%nat; 0%nat; 1%nat] [None; None] [None; None; None]].
Definition ex_path (t : R) (s : nat) : cpx := (t * INR s, t).
Lemma ex_rotations : rotations 2 ex_U ex_rots.
Proof.
  intros [|[|b]] conn E; [injection E as <-|injection E as <-|destruct b; discriminate];
    (intros [|[|x]] Hx; try lia; (split; [apply Forall_forall; intros c Hc; cbn in Hc; intuition subst; cbn; lia|]); intros [|[|t]] Ht; try lia; cbn; f_equal; ring).
Qed.
Lemma ex_unitary b : unitary 2 (ex_U b).
Proof.
  intros [|[|x]] [|[|t]] Hx Ht; try lia; destruct b as [|b]; cbn; f_equal; field.
Qed.
Lemma ex_training : training_set 2 ex_rots [0%nat; 1%nat] [0%nat; 1%nat].
Proof. split; [reflexivity|]. split; repeat constructor. Qed.
Lemma ex_shaped : Forall (shaped 2 2 2 3 [0%nat; 1%nat]) ex_ranks.
Proof. repeat constructor. Qed.
Lemma ex_psi s : psi_of (q_log ex_mach) s = (1, 0).
Proof. unfold psi_of. cbn [ex_mach q_log fst snd]. rewrite exp_0, cos_0, sin_0. f_equal; ring. Qed.
Lemma ex_amplitudes d : In d [(0, 0); (1, 1)]%nat -> cnorm2 (measured 2 ex_U (q_log ex_mach) d) <> 0.
Proof.
  intros [<-|[<-|[]]]; unfold measured, apply_op; cbn [fsum fst snd]; rewrite !ex_psi; unfold cnorm2; cbn; lra.
Qed.
Lemma ex_moves : moves 2 ex_mach (fun _ => (1, 0)) ex_path 0.
Proof.
  split.
  - intros s _. unfold ex_path. cbn. f_equal. ring.
  - intros s _. split; cbn [ex_path ex_mach q_npar q_der fsum entry nth fst snd].
    + apply (dl_ext (mult_real_fct (INR s) id)); [intros t; unfold mult_real_fct, id, ex_path; cbn; ring|].
      eapply dl_eq; [apply derivable_pt_lim_scal, derivable_pt_lim_id|]. cbn. ring.
    + apply (dl_ext id); [reflexivity|]. eapply dl_eq; [apply derivable_pt_lim_id|]. cbn. ring.
Qed.

Definition ex_outcome (s q : nat) : list rank_in := [RankIn [[s]] [q] [None] [None]].
Definition ex_space : list (R * list rank_in) :=
  [(/ 4, ex_outcome 0 0); (/ 4, ex_outcome 0 1); (/ 4, ex_outcome 1 0); (/ 4, ex_outcome 1 1)].
Lemma ex_weights : weights ex_space.
Proof. split; [repeat constructor; cbn [fst]; lra|]. cbn [rsum ex_space fst]. lra. Qed.
Lemma ex_space_shaped : Forall (fun o => length (snd o) = 1%nat /\ Forall (shaped 2 1 1 1 [0%nat; 1%nat]) (snd o)) ex_space.
Proof. repeat constructor. Qed.
Lemma ex_born s : born 2 (psi_of (q_log ex_mach)) s = / 2.
Proof. unfold born. rewrite norm2_sum. cbn [fsum]. rewrite !ex_psi. unfold cnorm2. cbn. field. Qed.
Lemma ex_sampled : sampled 2 1 1 1 1 [0%nat; 1%nat] (q_log ex_mach) ex_space.
Proof.
  split.
  - intros [|r] [|i] [|j] [|[|s]] Hr Hi Hj Hs; try lia; rewrite ex_born; cbn; lra.
  - intros [|r] [|i] [|[|q]] Hr Hi Hq; cbn in Hq; try lia; cbn; field.
Qed.
