From Coq Require Import List ZArith Bool Lia Reals Lra.
From Verif Require Import Base MCState_Model MCState_Spec MCState_Proofs Rings ARNN_Model ARNN_Proofs ToArray_Model
  Estim_Model Estim_Spec Estim_Proofs Mixed_Model Mixed_Spec.
Import ListNotations.

Section Life.
  Context {Par MSt RS Smp : Type}.
  Variable n_nodes : Z.
  Variable o_reset : sampler -> MSt * Par -> RS -> RS.
  Variable o_sample : sampler -> MSt * Par -> RS -> Z -> Smp * RS.
  Variable o_init : sampler -> MSt * Par -> RS.
  Variable with_pow : sampler -> Z -> sampler.
  Variable physical : sampler -> sampler.
  Notation mc := (mcstate Par MSt RS Smp).
  Notation mx := (mixed Par MSt RS Smp).
  Notation mrun := (mc_run n_nodes o_reset o_sample o_init).
  Notation xstep := (mixed_step n_nodes o_reset o_sample o_init).
  Notation xrun := (mixed_run n_nodes o_reset o_sample o_init).

  Definition main_ops (ops : list (mixed_op Par MSt RS)) : list (mc_op Par MSt RS) :=
    flat_map (fun o => match o with XMain o => [o] | _ => [] end) ops.
  Lemma mrun_app a b (s : mc) : mrun (a ++ b) s = mrun b (mrun a s).
  Proof. apply fold_left_app. Qed.

  Lemma run_main ops : forall x : mx, x_main (xrun ops x) = mrun (main_ops ops) (x_main x).
  Proof.
    induction ops as [|o ops IH]; intros x; [reflexivity|].
    change (xrun (o :: ops) x) with (xrun ops (xstep o x)). rewrite IH.
    destruct o; cbn [main_ops flat_map app mixed_step diag_op x_main]; reflexivity.
  Qed.

  Definition handed (o : mc_op Par MSt RS) : list (mc_op Par MSt RS) :=
    match o with OPar p => [OPar p] | OMst m => [OMst m] | OVars v => [OMst (fst v); OReset; OPar (snd v)] | _ => [] end.
  Definition step_ops (x : mx) (op : mixed_op Par MSt RS) : list (mc_op Par MSt RS) :=
    match op with
    | XMain o => (if resets n_nodes o (x_main x) then [OReset] else []) ++ handed o
    | _ => match diag_op op with Some o => [o] | None => [] end
    end.
  Lemma step_diag op (x : mx) : x_diag (xstep op x) = mrun (step_ops x op) (x_diag x).
  Proof.
    destruct op as [o| | | | | |]; try reflexivity. cbn [mixed_step step_ops x_diag]. rewrite mrun_app.
    assert (E : (if resets n_nodes o (x_main x) then mreset (x_diag x) else x_diag x)
      = mrun (if resets n_nodes o (x_main x) then [OReset] else []) (x_diag x)) by (destruct (resets n_nodes o (x_main x)); reflexivity).
    rewrite E. set (d := mrun (if resets n_nodes o (x_main x) then [OReset] else []) (x_diag x)). destruct o; reflexivity.
  Qed.
  Fixpoint diag_ops (x : mx) (ops : list (mixed_op Par MSt RS)) : list (mc_op Par MSt RS) :=
    match ops with [] => [] | o :: ops => step_ops x o ++ diag_ops (xstep o x) ops end.
  Lemma run_diag ops : forall x : mx, x_diag (xrun ops x) = mrun (diag_ops x ops) (x_diag x).
  Proof.
    induction ops as [|o ops IH]; intros x; [reflexivity|].
    change (xrun (o :: ops) x) with (xrun ops (xstep o x)). cbn [diag_ops]. rewrite mrun_app, IH, step_diag. reflexivity.
  Qed.

  Lemma current_app (a b : list (mc_op Par MSt RS)) : forall v, current (a ++ b) v = current b (current a v).
  Proof. induction a as [|o a IH]; intros v; [reflexivity|]. destruct o; cbn [app current]; apply IH. Qed.
  Lemma diag_current ops : forall (x : mx) v, current (diag_ops x ops) v = mixed_current ops v.
  Proof.
    induction ops as [|o ops IH]; intros x v; [reflexivity|]. cbn [diag_ops]. rewrite current_app, IH.
    destruct o as [o| | | | | |]; try reflexivity. cbn [step_ops]. rewrite current_app.
    assert (E : current (RS := RS) (if resets n_nodes o (x_main x) then [OReset] else []) v = v) by (destruct (resets n_nodes o (x_main x)); reflexivity).
    rewrite E. destruct o as [p|m|w| | | | | | | | |]; try reflexivity. cbn [handed current mixed_current fst snd]. destruct w; reflexivity.
  Qed.
  Lemma main_current ops : forall v, current (main_ops ops) v = mixed_current ops v.
  Proof.
    induction ops as [|o ops IH]; intros v; [reflexivity|]. unfold main_ops in *. cbn [flat_map]. rewrite current_app, IH.
    destruct o as [o| | | | | |]; try reflexivity. destruct o; reflexivity.
  Qed.
  Lemma main_plain ops : forallb plain_mixed ops = true -> forallb plain (main_ops ops) = true.
  Proof.
    induction ops as [|o ops IH]; [reflexivity|]. cbn [forallb]. intros H. apply andb_true_iff in H. destruct H as [H1 H2].
    unfold main_ops in *. cbn [flat_map]. rewrite forallb_app, (IH H2). destruct o; cbn [plain_mixed] in H1; cbn [forallb]; rewrite ?H1; reflexivity.
  Qed.
  Lemma diag_plain ops : forall x : mx, forallb plain_mixed ops = true -> forallb plain (diag_ops x ops) = true.
  Proof.
    induction ops as [|o ops IH]; intros x H; [reflexivity|]. cbn [forallb] in H. apply andb_true_iff in H. destruct H as [H1 H2].
    cbn [diag_ops]. rewrite forallb_app, (IH _ H2), andb_true_r.
    destruct o as [o| | | | | |]; try discriminate; try reflexivity.
    - cbn [step_ops]. rewrite forallb_app. destruct (resets n_nodes o (x_main x)); destruct o; reflexivity.
    - destruct cl; [discriminate|]. destruct n; [discriminate|]. reflexivity.
  Qed.

  (** *** construction *)
  Lemma construct_vars sm v n p d (s : mc) : construct n_nodes o_init sm v n p d = Ok s -> variables s = v.
  Proof.
    unfold construct. destruct (match n with Some _ => _ | None => _ end) as [m|]; cbn [bind]; [|discriminate].
    set (s0 := MCState _ _ _ _ _ _ _ _ _).
    assert (H : forall k s1, set_n_samples n_nodes k s0 = Ok s1 -> variables s1 = v).
    { intros k s1. unfold set_n_samples. destruct (compute_chain_length _ k); cbn [bind]; [|discriminate].
      intros E. injection E as <-. destruct v; reflexivity. }
    assert (G : forall s1, variables s1 = v -> set_discard d s1 = Ok s -> variables s = v).
    { intros s1 H1. unfold set_discard. destruct (match d with Some d => _ | None => _ end); [discriminate|].
      intros E. injection E as <-. exact H1. }
    destruct m as [m|m]; unfold set_n_samples_per_rank;
      (destruct (set_n_samples n_nodes _ s0) as [s1|] eqn:E1; cbn [bind]; [|discriminate]; apply G, (H _ _ E1)).
  Qed.
  Lemma construct_mixed_ok sm v k a (x : mx) : construct_mixed n_nodes o_init with_pow physical sm v k a = Ok x ->
    k_per_rank k = None /\ k_apply_fun k = false /\
    construct n_nodes o_init sm v (k_n_samples k) None (k_discard k) = Ok (x_main x) /\
    exists disc, (disc = a_discard a \/ (a_discard a = None /\ disc = a_old_discard a)) /\
    construct n_nodes o_init (with_pow (match a_sampler a with Some s => s | None => physical sm end) 1) v (a_n a) (a_per_rank a) disc = Ok (x_diag x).
  Proof.
    unfold construct_mixed. destruct (construct n_nodes o_init sm v (k_n_samples k) (k_per_rank k) (k_discard k)) as [m|e] eqn:E; cbn [bind]; [|discriminate].
    set (disc := match a_old_discard a, a_discard a with Some _, Some _ => Err ValueError | Some d, None => Ok (Some d) | None, d => Ok d end).
    assert (D : forall q, disc = Ok q -> q = a_discard a \/ (a_discard a = None /\ q = a_old_discard a)).
    { intros q. unfold disc. destruct (a_old_discard a), (a_discard a); intros Q; try discriminate; injection Q as <-; auto. }
    destruct disc as [q|e]; cbn [bind]; [|discriminate]. specialize (D q eq_refl).
    destruct (k_per_rank k) as [p|]; [discriminate|]. destruct (k_apply_fun k) eqn:KA; [discriminate|].
    rewrite (construct_vars _ _ _ _ _ _ E).
    destruct (construct n_nodes o_init _ v (a_n a) (a_per_rank a) q) as [d|e] eqn:Ed; cbn [bind]; [|discriminate].
    intros X. injection X as <-. split; [reflexivity|]. split; [reflexivity|]. split; [exact E|]. exists q. split; assumption.
  Qed.

  Lemma sync_main sm v k a (x : mx) ops : construct_mixed n_nodes o_init with_pow physical sm v k a = Ok x ->
    let y := xrun ops x in
    variables (x_main y) = mixed_current ops v /\ variables (x_diag y) = mixed_current ops v /\
    (exists t w, msamples n_nodes o_reset o_sample (x_main y) = Ok (t, w) /\
       drawn_with o_sample (f_sampler (x_main y)) (mixed_current ops v) w) /\
    (exists t w, msamples n_nodes o_reset o_sample (x_diag y) = Ok (t, w) /\
       drawn_with o_sample (f_sampler (x_diag y)) (mixed_current ops v) w).
  Proof.
    intros E y. destruct (construct_mixed_ok _ _ _ _ _ E) as (_ & _ & Em & disc & _ & Ed).
    assert (Vm : variables (x_main y) = mixed_current ops v).
    { unfold y. rewrite run_main, run_variables, (construct_vars _ _ _ _ _ _ Em). apply main_current. }
    assert (Vd : variables (x_diag y) = mixed_current ops v).
    { unfold y. rewrite run_diag, run_variables, (construct_vars _ _ _ _ _ _ Ed). apply diag_current. }
    split; [exact Vm|]. split; [exact Vd|]. split.
    - destruct (samples_current n_nodes o_reset o_sample (x_main y)) as (t & w & A & B & _).
      + unfold y. rewrite run_main. apply run_inv. apply (construct_inv n_nodes o_sample o_init _ _ _ _ _ _ Em).
      + rewrite Vm in B. eauto.
    - destruct (samples_current n_nodes o_reset o_sample (x_diag y)) as (t & w & A & B & _).
      + unfold y. rewrite run_diag. apply run_inv. apply (construct_inv n_nodes o_sample o_init _ _ _ _ _ _ Ed).
      + rewrite Vd in B. eauto.
  Qed.

  (** *** the diagonal sampler *)
  Lemma mstep_sampler o (s : mc) : (forall sm, o <> OSampler sm) ->
    f_sampler (mc_step n_nodes o_reset o_sample o_init o s) = f_sampler s.
  Proof.
    intros H. assert (SN : forall n s', set_n_samples n_nodes n s = Ok s' -> f_sampler s' = f_sampler s).
    { intros n s'. unfold set_n_samples. destruct (compute_chain_length _ n); cbn [bind]; [|discriminate]. intros E. injection E as <-. reflexivity. }
    assert (MS : forall cl n d, f_sampler (match msample n_nodes o_reset o_sample cl n d s with Ok t => fst t | Err _ => s end) = f_sampler s).
    { intros cl n d. unfold msample. destruct (match cl with Some c => _ | None => _ end); reflexivity. }
    destruct o as [p|m|v|sm|r|n|n|n|d| |cl n d|]; cbn [mc_step]; try reflexivity.
    - destruct (H sm eq_refl).
    - unfold keep. destruct (set_n_samples n_nodes n s) eqn:E; [apply (SN _ _ E)|reflexivity].
    - unfold keep, set_n_samples_per_rank. destruct (set_n_samples n_nodes _ s) eqn:E; [apply (SN _ _ E)|reflexivity].
    - unfold keep, set_chain_length. destruct (set_n_samples n_nodes _ s) eqn:E; [apply (SN _ _ E)|reflexivity].
    - unfold keep, set_discard. destruct (match d with Some d => _ | None => _ end); reflexivity.
    - apply MS.
    - unfold msamples. destruct (f_samples s); [reflexivity|apply MS].
  Qed.
  Lemma mrun_sampler ops : forall s : mc, Forall (fun o => forall sm, o <> OSampler sm) ops -> f_sampler (mrun ops s) = f_sampler s.
  Proof.
    induction ops as [|o ops IH]; intros s F; [reflexivity|]. inversion F as [|? ? F1 F2]; subst.
    change (mrun (o :: ops) s) with (mrun ops (mc_step n_nodes o_reset o_sample o_init o s)). rewrite (IH _ F2). apply mstep_sampler, F1.
  Qed.
  Lemma step_sampler op (x : mx) : f_sampler (x_diag (xstep op x)) = diag_sampler [op] (f_sampler (x_diag x)).
  Proof.
    destruct op as [o|sm|n|n|d|cl n d|]; try (cbn [mixed_step diag_op x_diag diag_sampler]; first [reflexivity|apply mstep_sampler; discriminate]).
    cbn [diag_sampler]. rewrite step_diag. apply mrun_sampler. cbn [step_ops]. apply Forall_app. split.
    - destruct (resets n_nodes o (x_main x)); repeat constructor; discriminate.
    - destruct o; repeat constructor; discriminate.
  Qed.
  Lemma run_sampler ops : forall x : mx, f_sampler (x_diag (xrun ops x)) = diag_sampler ops (f_sampler (x_diag x)).
  Proof.
    induction ops as [|o ops IH]; intros x; [reflexivity|].
    change (xrun (o :: ops) x) with (xrun ops (xstep o x)). rewrite IH, step_sampler. destruct o; reflexivity.
  Qed.
  Lemma power_main sm v k a (x : mx) ops pow : construct_mixed n_nodes o_init with_pow physical sm v k a = Ok x ->
    (forall s p, pow (with_pow s p) = p) ->
    f_sampler (x_diag (xrun ops x)) = diag_sampler ops (f_sampler (x_diag x)) /\ pow (f_sampler (x_diag x)) = 1%Z.
  Proof.
    intros E HP. split; [apply run_sampler|]. destruct (construct_mixed_ok _ _ _ _ _ E) as (_ & _ & _ & disc & _ & Ed).
    rewrite (proj2 (construct_inv n_nodes o_sample o_init _ _ _ _ _ _ Ed)). apply HP.
  Qed.

  (** *** keywords *)
  Lemma keywords_main sm v k a (m : mc) :
    construct n_nodes o_init sm v (k_n_samples k) (k_per_rank k) (k_discard k) = Ok m ->
    (a_old_discard a = None \/ a_discard a = None) ->
    k_per_rank k <> None \/ k_apply_fun k = true ->
    construct_mixed (Smp := Smp) n_nodes o_init with_pow physical sm v k a = Err TypeError.
  Proof.
    intros E D H. unfold construct_mixed. rewrite E. cbn [bind].
    assert (Q : exists q, match a_old_discard a, a_discard a with Some _, Some _ => Err ValueError | Some d, None => Ok (Some d) | None, d => Ok d end = Ok q).
    { destruct (a_old_discard a), (a_discard a); eauto. destruct D; discriminate. }
    destruct Q as [q ->]. cbn [bind]. destruct (k_per_rank k); [reflexivity|]. destruct H as [H|H]; [congruence|]. rewrite H. reflexivity.
  Qed.

  (** *** serialisation *)
  Lemma mixed_roundtrip sm v k a (x : mx) ops (t : mx) : (0 < n_chains n_nodes sm)%Z ->
    (0 < n_chains n_nodes (f_sampler (x_diag x)))%Z ->
    construct_mixed n_nodes o_init with_pow physical sm v k a = Ok x -> forallb plain_mixed ops = true ->
    let u := xrun ops x in
    f_sampler (x_main t) = f_sampler (x_main u) -> f_sampler (x_diag t) = f_sampler (x_diag u) ->
    exists t' u', deserialize_mixed n_nodes t (serialize_mixed u) = Ok (t', u') /\
      variables (x_main u') = variables (x_main u) /\ variables (x_diag u') = variables (x_diag u) /\
      f_rs (x_main u') = f_rs (x_main u) /\ f_rs (x_diag u') = f_rs (x_diag u) /\
      f_n_samples (x_main u') = f_n_samples (x_main u) /\ f_n_samples (x_diag u') = f_n_samples (x_diag u) /\
      f_chain_length (x_main u') = f_chain_length (x_main u) /\ f_chain_length (x_diag u') = f_chain_length (x_diag u) /\
      f_discard (x_main u') = f_discard (x_main u) /\ f_discard (x_diag u') = f_discard (x_diag u) /\
      x_main t' = x_main t /\ x_diag t' = mreset (x_diag t).
  Proof.
    intros Hc Hd E HP u Tm Td.
    destruct (sync_main _ _ _ _ _ ops E) as (Vm & Vd & _). fold u in Vm, Vd.
    destruct (construct_mixed_ok _ _ _ _ _ E) as (_ & _ & Em & disc & _ & Ed).
    pose proof (proj2 (construct_inv n_nodes o_sample o_init _ _ _ _ _ _ Ed)) as Sd. rewrite Sd in Hd.
    destruct (run_roundtrip n_nodes o_reset o_sample o_init sm v _ _ _ (x_main x) (main_ops ops) (x_main t) Hc Em (main_plain ops HP)) as (mu & M1 & M2 & M3 & M4 & M5 & M6 & M7).
    { rewrite <- run_main. exact Tm. }
    rewrite <- run_main in *. fold u in M1, M2, M3, M4, M5, M6.
    destruct (run_roundtrip n_nodes o_reset o_sample o_init _ v _ _ _ (x_diag x) (diag_ops x ops) (mreset (x_diag t)) Hd Ed (diag_plain ops x HP)) as (du & D1 & D2 & D3 & D4 & D5 & D6 & D7).
    { rewrite <- run_diag. exact Td. }
    rewrite <- run_diag in *. fold u in D1, D2, D3, D4, D5, D6.
    unfold deserialize_mixed, serialize_mixed. cbn [md_diag md_main]. rewrite D1. cbn [bind].
    unfold deserialize in M1. change (d_vars (serialize (x_main u))) with (variables (x_main u)) in *.
    destruct (set_n_samples n_nodes (d_n (serialize (x_main u))) (set_sampler_state (d_rs (serialize (x_main u))) (set_variables (variables (x_main u)) (mreset (x_main t))))) as [s4|e] eqn:S4; cbn [bind] in *; [|discriminate].
    rewrite M1. cbn [bind]. eexists. eexists. split; [reflexivity|]. cbn [x_main x_diag].
    split; [exact M2|]. split.
    { cbn [hand_on]. rewrite Vd. rewrite Vm. unfold variables. cbn. destruct (mixed_current ops v); reflexivity. }
    split; [exact M3|]. split; [exact D3|]. split; [exact M4|]. split; [exact D4|]. split; [exact M5|]. split; [exact D5|].
    split; [exact M6|]. split; [exact D6|]. split; reflexivity.
  Qed.
End Life.

(** ** Expectation values *)
Open Scope R_scope.

Lemma rho_is l r c : rho_of l r c = cexp (l r c).
Proof. reflexivity. Qed.

Lemma local_op_op N O conn log_rho s : describes N O conn -> (s < N)%nat ->
  (local_value_op_op log_rho s (conn s) * rho_of log_rho s s)%C = fsum cC N (fun t => O s t * rho_of log_rho t s)%C.
Proof.
  intros D Hs. destruct (D s Hs) as [F E]. unfold local_value_op_op. rewrite lsum_scal_r.
  rewrite (map_ext _ (fun c => snd c * (fun t => rho_of log_rho t s) (fst c))%C).
  - rewrite (group_conn N (fun t => rho_of log_rho t s)) by exact F. apply fsum_ext. intros t Ht. now rewrite E.
  - intros c. cbn beta. rewrite !rho_is, <- (cexp_sub (log_rho (fst c) s) (log_rho s s)). ring.
Qed.

Lemma wsum_full_of N w f : wsum (full_of N w) f = over (fsum cC N (fun s => emb (w s) * f s)%C) (fsum rR N w).
Proof.
  unfold wsum, full_of. rewrite map_map. cbn [fst snd].
  rewrite <- (fsum_lsum cC cC_laws N (fun s => rscal (w s / fsum rR N w) (f s))).
  rewrite over_emb, <- (fsum_scal cC cC_laws). apply fsum_ext. intros s _.
  rewrite rscal_emb. unfold Rdiv. rewrite emb_mul. ring.
Qed.

(** a positive diagonal element is exp of the real part of its logarithm *)
Lemma positive_element log_rho s : snd (rho_of log_rho s s) = 0 -> 0 < fst (rho_of log_rho s s) ->
  rho_of log_rho s s = emb (exp (fst (log_rho s s))).
Proof.
  unfold rho_of, emb. cbn [fst snd]. intros H1 H2. pose proof (exp_pos (fst (log_rho s s))) as P.
  assert (S0 : sin (snd (log_rho s s)) = 0).
  { apply Rmult_integral in H1. destruct H1 as [H1|H1]; [lra|exact H1]. }
  assert (C0 : 0 < cos (snd (log_rho s s))).
  { destruct (Rle_lt_dec (cos (snd (log_rho s s))) 0) as [L|L]; [|exact L].
    assert (exp (fst (log_rho s s)) * cos (snd (log_rho s s)) <= 0).
    { replace 0 with (exp (fst (log_rho s s)) * 0) by ring. apply Rmult_le_compat_l; lra. } lra. }
  pose proof (sin2_cos2 (snd (log_rho s s))) as Q. unfold Rsqr in Q. rewrite S0 in Q.
  assert (C1 : cos (snd (log_rho s s)) = 1) by nra.
  rewrite C1, S0. f_equal; ring.
Qed.

Lemma expect_mixed N O conn log_rho : describes N O conn -> positive_diagonal N (rho_of log_rho) ->
  expect_operator log_rho conn (full_of N (sampled_weight 1 (diagonal_log log_rho))) = mixed_expectation N O (rho_of log_rho).
Proof.
  intros D P. unfold expect_operator. rewrite wsum_full_of. unfold mixed_expectation. f_equal.
  - unfold trace, mat_mul.
    rewrite (fsum_ext cC N _ (fun s => fsum cC N (fun t => O s t * rho_of log_rho t s)%C)).
    + rewrite (fsum_swap cC cC_laws). apply fsum_ext. intros k _. apply fsum_ext. intros s _. ring.
    + intros s Hs. rewrite <- (local_op_op N O conn log_rho s D Hs).
      destruct (P s Hs) as [P1 P2]. rewrite (positive_element _ _ P1 P2).
      unfold sampled_weight, diagonal_log. rewrite pow_1. ring.
  - unfold trace. rewrite fst_fsum. apply fsum_ext. intros s Hs. destruct (P s Hs) as [P1 P2].
    rewrite (positive_element _ _ P1 P2). unfold sampled_weight, diagonal_log. rewrite pow_1. reflexivity.
Qed.

(** With machine_pow 2 on the diagonal: diagonal matrix with elements 1, 2 and the projector
    on the first state. *)
Definition wit_rho (r c : nat) : cpx := match r with O => (0, 0) | _ => (ln 2, 0) end.
Definition wit_P (s t : nat) : cpx := match s, t with O, O => (1, 0) | _, _ => (0, 0) end.
Definition wit_Pconn (s : nat) : list (nat * cpx) := match s with O => [(O, (1, 0))] | _ => [] end.
Lemma wit_P_describes : describes 2 wit_P wit_Pconn.
Proof.
  intros s Hs. destruct s as [|[|s]]; [| |lia]; cbn [wit_Pconn].
  - split; [repeat constructor|]. intros t Ht. destruct t as [|[|t]]; [| |lia]; cbn; cpx; ring.
  - split; [constructor|]. intros t Ht. reflexivity.
Qed.
Lemma wit_rho_positive : positive_diagonal 2 (rho_of wit_rho).
Proof.
  intros s Hs. destruct s as [|[|s]]; [| |lia]; unfold rho_of; cbn [wit_rho fst snd]; rewrite sin_0, cos_0; split; try ring;
    rewrite Rmult_1_r; apply exp_pos.
Qed.
Lemma wit_exact : mixed_expectation 2 wit_P (rho_of wit_rho) = (/ 3, 0).
Proof.
  unfold mixed_expectation, trace, mat_mul. cbn [fsum]. unfold rho_of. cbn [wit_rho wit_P fst snd].
  rewrite sin_0, cos_0, exp_0, exp_ln by lra. unfold over. cpx; field.
Qed.
Lemma wit_squared : expect_operator wit_rho wit_Pconn (full_of 2 (sampled_weight 2 (diagonal_log wit_rho))) = (/ 5, 0).
Proof.
  unfold expect_operator. rewrite wsum_full_of. cbn [fsum]. unfold local_value_op_op, sampled_weight, diagonal_log.
  cbn [wit_Pconn map lsum fold_right wit_rho fst snd].
  replace (rsub cC (0, 0) (0, 0)) with (0, 0) by (cpx; ring).
  unfold cexp. cbn [fst snd]. rewrite sin_0, cos_0, exp_0, exp_ln by lra. unfold over, emb, lsum. cpx; cbn; field.
Qed.
Lemma squared_diagonal : exists N O conn log_rho,
  describes N O conn /\ positive_diagonal N (rho_of log_rho) /\
  expect_operator log_rho conn (full_of N (sampled_weight 2 (diagonal_log log_rho))) <> mixed_expectation N O (rho_of log_rho).
Proof.
  exists 2%nat, wit_P, wit_Pconn, wit_rho. split; [exact wit_P_describes|]. split; [exact wit_rho_positive|].
  rewrite wit_exact, wit_squared. intros H. injection H as H. lra.
Qed.
