(** The machine with two real networks *)
From Coq Require Import List Arith ZArith Bool Reals Lra Lia Ring Permutation.
From Verif Require Import Base Rings ARNN_Model ARNN_Proofs ToArray_Model Estim_Model Estim_Spec Estim_Proofs
  Ansatz_Model Ansatz_Spec Ansatz_Proofs LocVal_Proofs
  LegRbm_Model LegRbm_Spec LegRbm_Proofs LegRbm_Grad LegRbm_Final.
Import ListNotations.
Open Scope R_scope.
Open Scope nat_scope.

Definition real_row (s : list cpx) : Prop := Forall (holds PFloat) s.
Lemma real_nth l i : real_row l -> snd (nth i l (0, 0)%R) = 0%R.
Proof.
  intros F. destruct (nth_in_or_default i l (0%R, 0%R)) as [Hin|E]; [|rewrite E; reflexivity].
  unfold real_row in F. rewrite Forall_forall in F. exact (F _ Hin eq_refl).
Qed.
Lemma unit_real c p s j : real_row p -> real_row s -> isreal (unit_input c p s j).
Proof.
  intros Hp Hs. unfold unit_input. apply theta_real.
  - intros i k. unfold isreal, doc_w, entries. destruct (c_sym c); apply real_nth, Hp.
  - intros b Hb i. unfold doc_b in Hb. destruct (c_hid c); [|discriminate]. injection Hb as <-. apply real_nth, Hp.
  - intros i. apply real_nth, Hs.
Qed.
Lemma leg_real x : leg_log_cosh (x, 0)%R = Some (ln (cosh x), 0)%R.
Proof.
  destruct (Req_dec x 0) as [->|H].
  - unfold leg_log_cosh. cbn [fst]. replace (sign 0) with 0%R.
    2:{ destruct (sign_cases 0) as [[_ ?]|[[_ ?]|[-> _]]]; [lra|lra|reflexivity]. }
    unfold rscal. cbn [fst snd]. replace (-2 * (0 * 0))%R with 0%R by ring. rewrite cexp_real, exp_0. unfold emb. cbn [radd cC fst snd].
    replace (0 + 0)%R with 0%R by ring. rewrite clog_pos by lra. cbn [option_map radd rsub cC fst snd]. do 2 f_equal; [|ring].
    unfold cosh. rewrite Ropp_0, exp_0. replace ((1 + 1) / 2)%R with 1%R by field. rewrite ln_1. replace (1 + 1)%R with 2%R by ring. ring.
  - rewrite <- log_cosh_real. unfold leg_log_cosh, log_cosh. cbn [fst].
    replace (sign x) with (if Rlt_dec x 0 then (-1)%R else 1%R).
    2:{ destruct (sign_cases x) as [[-> ?]|[[-> ?]|[_ ?]]]; [destruct (Rlt_dec x 0); lra|destruct (Rlt_dec x 0); lra|contradiction]. }
    destruct (clog _); [|reflexivity]. cbn [option_map]. f_equal. rg.
Qed.
(** the value of a real machine is real, and its exponential is the documented one *)
Lemma row_real c p s : c_type c = PFloat -> real_row p -> real_row s -> exists v, row_val c p s = Some (v, 0)%R /\ doc_amplitude c p s = (exp v, 0)%R.
Proof.
  intros Ht Hp Hs.
  assert (V : exists v, row_val c p s = Some (v, 0)%R).
  { assert (H : exists h, hid_val c p s = Some (h, 0)%R).
    { unfold hid_val. exists (lsum rR (map (fun j => ln (cosh (fst (unit_input c p s j)))) (seq 0 (doc_hidden c)))). rewrite <- lsum_log_real. f_equal. apply map_ext. intros j.
      rewrite (isreal_eta _ (unit_real c p s j Hp Hs)) at 1. apply leg_real. }
    destruct H as [h H]. unfold row_val. rewrite H. destruct (c_vis c) eqn:Hv; [|exists h; reflexivity].
    unfold doc_a. rewrite Hv. cbn [visible ladd].
    assert (R : isreal (fsum cC (c_n c) (fun i => (entries 0 p (match c_sym c with None => i | Some _ => 0 end) * row_fn s i)%C))).
    { apply fsum_isreal. intros i. apply isreal_mul; [apply real_nth, Hp|apply real_nth, Hs]. }
    eexists. f_equal. cbn [radd cC fst snd]. unfold isreal in R. rewrite R, Rplus_0_r. reflexivity. }
  destruct V as [v V]. exists v. split; [exact V|]. rewrite <- row_amplitude.
  - rewrite V. cbn [amplitude]. rewrite cexp_real. reflexivity.
  - intros j _. now apply real_off_axis.
Qed.
Lemma zip_nth (f g : list cpx -> logval) x i : i < length x ->
  nth i (zip_add (map f x) (map g x)) None = ladd (f (nth i x [])) (g (nth i x [])).
Proof.
  revert i. induction x as [|s x IH]; intros i Hi; cbn [length] in Hi; [lia|]. cbn [map zip_add nth]. destruct i as [|i]; [reflexivity|]. apply IH. lia.
Qed.
Lemma zip_length (f g : list cpx -> logval) x : length (zip_add (map f x) (map g x)) = length x.
Proof. induction x as [|s x IH]; [reflexivity|]. cbn [map zip_add length]. now rewrite IH. Qed.
Lemma real_rows c x : c_type c = PFloat -> Forall real_row x -> Forall (Forall (holds (c_type c))) x.
Proof. intros -> H. exact H. Qed.

Section Two.
  Variables (m m' : phase) (p : list cpx).
  Let ca := m_cfg (ph_a m).
  Let cp := m_cfg (ph_p m).
  Let pa := firstn (n_par ca) p.
  Let pp := skipn (n_par ca) p.
  Hypothesis Ta : c_type ca = PFloat.
  Hypothesis Tp : c_type cp = PFloat.
  Hypothesis Hp : real_row p.
  Hypothesis HS : set_phase m p = (m', None).

  Lemma pa_real : real_row pa.
  Proof. unfold real_row in *. rewrite <- (firstn_skipn (n_par ca) p), Forall_app in Hp. apply Hp. Qed.
  Lemma pp_real : real_row pp.
  Proof. unfold real_row in *. rewrite <- (firstn_skipn (n_par ca) p), Forall_app in Hp. apply Hp. Qed.
  Lemma two_set : length p = n_par ca + n_par cp /\ length pa = n_par ca /\ length pp = n_par cp /\ m' = Phase (RMach ca pa (expand ca pa)) (RMach cp pp (expand cp pp)).
  Proof.
    unfold set_phase in HS. fold ca in HS. fold pa in HS. fold pp in HS.
    destruct (set_parameters (ph_a m) pa) as [a|e] eqn:E1; [|discriminate]. destruct (set_parameters (ph_p m) pp) as [b|e] eqn:E2; [|discriminate].
    injection HS as <-. apply set_ok in E1; [|fold ca; rewrite Ta; apply pa_real]. apply set_ok in E2; [|fold cp; rewrite Tp; apply pp_real].
    destruct E1 as [L1 ->], E2 as [L2 ->]. fold ca in L1 |- *. fold cp in L2 |- *. repeat split; auto.
    rewrite <- (firstn_skipn (n_par ca) p), app_length. fold pa pp. lia.
  Qed.
  Lemma two_values x out : Forall real_row x ->
    exists vals buf, log_val_phase m' 2 x out = Ok (vals, buf) /\ length vals = length x /\
      forall i, i < length x -> exists va vp, doc_amplitude ca pa (nth i x []) = (exp va, 0)%R /\ doc_amplitude cp pp (nth i x []) = (exp vp, 0)%R /\
        nth i vals None = Some (va, vp) /\ amplitude (nth i vals None) = phase_amplitude ca cp pa pp (nth i x []).
  Proof.
    intros Hx. destruct two_set as (_ & _ & _ & ->). unfold log_val_phase. cbn [ph_a ph_p].
    rewrite (log_val_is ca pa x out) by (now apply real_rows). rewrite (log_val_is cp pp x false) by (now apply real_rows).
    cbn [bind fst snd]. eexists _, _. split; [reflexivity|]. rewrite map_map. split; [apply zip_length|].
    intros i Hi. rewrite zip_nth by exact Hi.
    assert (Hs : real_row (nth i x [])) by (rewrite Forall_forall in Hx; apply Hx, nth_In, Hi).
    destruct (row_real ca pa (nth i x []) Ta pa_real Hs) as (va & Va & Da). destruct (row_real cp pp (nth i x []) Tp pp_real Hs) as (vp & Vp & Dp).
    exists va, vp. rewrite Va, Vp. cbn [lscale option_map ladd]. 
    replace (radd cC (va, 0%R) (rmul cC (0%R, 1%R) (vp, 0%R))) with (va, vp) by (cpx; ring).
    repeat split; auto. cbn [amplitude]. unfold phase_amplitude. rewrite Da, Dp. cbn [fst]. rewrite ln_exp.
    unfold cexp. cbn [fst snd]. rewrite exp_0. cpx; ring.
  Qed.
  (** both gradients side by side *)
  Lemma two_grad x : proper ca -> proper cp -> Forall real_row x ->
    exists d, der_log_phase m' 2 x = Ok d /\ length d = length x /\
      forall i, i < length x -> length (nth i d []) = length p /\
      forall (path : R -> list cpx) t0 dp, path t0 = p -> (forall t, length (path t) = length p) -> (forall t, real_row (path t)) ->
        (forall k, k < length p -> cderiv (fun t => nth k (path t) (0, 0)%R) t0 (dp k)) ->
        cderiv (fun t => phase_amplitude ca cp (firstn (n_par ca) (path t)) (skipn (n_par ca) (path t)) (nth i x [])) t0
          (phase_amplitude ca cp pa pp (nth i x []) * fsum cC (length p) (fun k => nth k (nth i d []) (0, 0)%R * dp k))%C.
  Proof.
    intros Pa Pp Hx. destruct two_set as (Lp & La & Lpp & ->). unfold der_log_phase, der_log. cbn [ph_a ph_p Nat.eqb negb bind m_cfg m_bare].
    eexists. split; [reflexivity|]. set (da := der_row ca (expand ca pa)). set (dq := der_row cp (expand cp pp)).
    assert (Z : forall i, i < length x -> nth i (zip_app (map da x) (map (map (rmul cC (0, 1)%R)) (map dq x))) [] = da (nth i x []) ++ map (rmul cC (0, 1)%R) (dq (nth i x []))).
    { clear. induction x as [|s x IH]; intros i Hi; cbn [length] in Hi; [lia|]. cbn [map zip_app nth]. destruct i as [|i]; [reflexivity|]. apply IH. lia. }
    split. { clear. induction x as [|s x IH]; [reflexivity|]. cbn [map zip_app length]. now rewrite IH. }
    intros i Hi. rewrite Z by exact Hi. set (s := nth i x []).
    assert (Hs : real_row s) by (rewrite Forall_forall in Hx; apply Hx, nth_In, Hi).
    assert (Lda : length (da s) = n_par ca) by apply der_row_length. assert (Ldq : length (dq s) = n_par cp) by apply der_row_length.
    split. { rewrite app_length, map_length, Lda, Ldq. lia. }
    intros path t0 dp E0 HL HR HD.
    assert (Gt : forall t, length (firstn (n_par ca) (path t)) = n_par ca) by (intros t; rewrite firstn_length, HL; lia).
    assert (Gu : forall t, length (skipn (n_par ca) (path t)) = n_par cp) by (intros t; rewrite skipn_length, HL; lia).
    assert (Ra : forall t, real_row (firstn (n_par ca) (path t)) /\ real_row (skipn (n_par ca) (path t))).
    { intros t. pose proof (HR t) as F. unfold real_row in *. rewrite <- (firstn_skipn (n_par ca) (path t)), Forall_app in F. exact F. }
    assert (NZ : forall c q, real_row q -> forall j, ccosh (unit_input c q s j) <> (0, 0)%R).
    { intros c q Hq j. rewrite (isreal_eta _ (unit_real c q s j Hq Hs)). set (u := fst (unit_input c q s j)). intros E. apply (f_equal fst) in E.
      unfold ccosh, rscal, cexp in E. cbn [fst snd ropp radd cC] in E. rewrite Ropp_0, cos_0 in E. pose proof (exp_pos u). pose proof (exp_pos (- u)). lra. }
    (* the two gradients *)
    set (Sa := fsum cC (n_par ca) (fun k => (nth k (da s) (0, 0)%R * dp k)%C)).
    set (Sp := fsum cC (n_par cp) (fun k => (nth k (dq s) (0, 0)%R * dp (n_par ca + k)%nat)%C)).
    assert (D1 : cderiv (fun t => doc_amplitude ca (firstn (n_par ca) (path t)) s) t0 (doc_amplitude ca pa s * Sa)%C).
    { unfold pa. rewrite <- E0. unfold Sa, da, pa. rewrite <- E0. apply (gradient_main ca (fun t => firstn (n_par ca) (path t))); auto.
      - intros k Hk. apply (cderiv_ext (fun t => nth k (path t) (0, 0)%R)); [|apply HD; lia].
        intros t. rewrite <- (firstn_skipn (n_par ca) (path t)) at 1. rewrite app_nth1 by (rewrite Gt; exact Hk). reflexivity.
      - intros j _. apply NZ. apply Ra. }
    assert (D2 : cderiv (fun t => doc_amplitude cp (skipn (n_par ca) (path t)) s) t0 (doc_amplitude cp pp s * Sp)%C).
    { unfold pp. rewrite <- E0. unfold Sp, dq, pp. rewrite <- E0. apply (gradient_main cp (fun t => skipn (n_par ca) (path t)) s t0 (fun k => dp (n_par ca + k)%nat)); auto.
      - intros k Hk. apply (cderiv_ext (fun t => nth (n_par ca + k) (path t) (0, 0)%R)); [|apply HD; lia].
        intros t. rewrite <- (firstn_skipn (n_par ca) (path t)) at 1. rewrite app_nth2 by (rewrite Gt; lia). rewrite Gt. f_equal. lia.
      - intros j _. apply NZ. apply Ra. }
    destruct (row_real cp pp s Tp pp_real Hs) as (vp & _ & Dp).
    (* the derivative of the phase *)
    assert (D3 : derivable_pt_lim (fun t => ln (fst (doc_amplitude cp (skipn (n_par ca) (path t)) s))) t0 (fst Sp)).
    { destruct D2 as [D2 _]. pose proof (exp_pos vp) as Ev.
      assert (X : fst (doc_amplitude cp (skipn (n_par ca) (path t0)) s) = exp vp). { rewrite E0. fold pp. now rewrite Dp. }
      apply (dl_eq _ _ (/ exp vp * fst (doc_amplitude cp pp s * Sp)%C)).
      - apply (derivable_pt_lim_comp (fun t => fst (doc_amplitude cp (skipn (n_par ca) (path t)) s)) ln); [exact D2|]. rewrite X. apply derivable_pt_lim_ln, Ev.
      - rewrite Dp. cbn [rmul cC fst snd]. field. lra. }
    assert (D4 : snd (doc_amplitude cp pp s * Sp)%C = 0%R).
    { destruct D2 as [_ D2]. apply (uniqueness_limite (fun t => snd (doc_amplitude cp (skipn (n_par ca) (path t)) s)) t0); [exact D2|].
      apply (dl_ext (fun _ => 0%R)); [|apply derivable_pt_lim_const]. intros t.
      destruct (row_real cp (skipn (n_par ca) (path t)) s Tp (proj2 (Ra t)) Hs) as (v & _ & ->). reflexivity. }
    assert (D5 : snd Sp = 0%R).
    { rewrite Dp in D4. cbn [rmul cC fst snd] in D4. pose proof (exp_pos vp). nra. }
    assert (E : fsum cC (length p) (fun k => (nth k (da s ++ map (rmul cC (0, 1)%R) (dq s)) (0, 0)%R * dp k)%C) = (Sa + (0, fst Sp)%R)%C).
    { rewrite Lp, (fsum_app cC cC_laws). f_equal.
      - apply (fsum_ext cC). intros k Hk. now rewrite app_nth1 by lia.
      - transitivity ((0, 1)%R * Sp)%C; [|cbn [rmul cC fst snd]; rewrite D5; f_equal; ring].
        unfold Sp. rewrite <- (fsum_scal cC cC_laws). apply (fsum_ext cC). intros k Hk. rewrite app_nth2 by lia. rewrite Lda.
        replace (n_par ca + k - n_par ca) with k by lia. set (h := rmul cC (0, 1)%R). rewrite (nth_indep _ _ (h (0, 0)%R)) by (rewrite map_length; lia). rewrite map_nth. unfold h. rg. }
    eapply cderiv_eq.
    - unfold phase_amplitude. apply (cderiv_mul (fun t => doc_amplitude ca (firstn (n_par ca) (path t)) s)
        (fun t => cexp (0%R, ln (fst (doc_amplitude cp (skipn (n_par ca) (path t)) s))))); [exact D1|].
      apply (cderiv_exp (fun t => (0%R, ln (fst (doc_amplitude cp (skipn (n_par ca) (path t)) s)))) t0 (0, fst Sp)%R).
      split; cbn [fst snd]; [apply derivable_pt_lim_const|exact D3].
    - cbv beta. rewrite E. unfold phase_amplitude. rewrite E0. fold pa pp. rg.
  Qed.
  Lemma two_roundtrip : get_phase m' = p.
  Proof. destruct two_set as (_ & _ & _ & ->). unfold get_phase, get_parameters. cbn. apply firstn_skipn. Qed.
End Two.
Lemma set_phase_wrong m p m' e : set_phase m p = (m', Some e) -> e = ValueError /\ length p <> n_par (m_cfg (ph_a m)) + n_par (m_cfg (ph_p m)).
Proof.
  unfold set_phase. set (k := n_par (m_cfg (ph_a m))). destruct (set_parameters (ph_a m) (firstn k p)) as [a|e1] eqn:E1.
  - destruct (set_parameters (ph_p m) (skipn k p)) as [b|e2] eqn:E2; [discriminate|]. intros [= _ <-].
    unfold set_parameters in E2. destruct (Nat.eqb_spec (length (skipn k p)) (n_par (m_cfg (ph_p m)))) as [|N]; [discriminate|]. injection E2 as <-. split; [reflexivity|].
    intros L. apply N. rewrite skipn_length. lia.
  - intros [= _ <-]. unfold set_parameters in E1. fold k in E1. destruct (Nat.eqb_spec (length (firstn k p)) k) as [|N]; [discriminate|]. injection E1 as <-. split; [reflexivity|].
    intros L. apply N. rewrite firstn_length. lia.
Qed.
Definition wit_ph : rcfg := RCfg 1 true false None 0 PFloat.
Lemma phase_torn : exists m p m', set_phase m p = (m', Some ValueError) /\ get_phase m = [(0, 0); (0, 0)]%R /\ get_phase m' = [(1, 0); (0, 0)]%R.
Proof.
  exists (Phase (RMach wit_ph [(0, 0)]%R [(0, 0)]%R) (RMach wit_ph [(0, 0)]%R [(0, 0)]%R)), [(1, 0); (2, 0); (3, 0)]%R.
  exists (Phase (RMach wit_ph [(1, 0)]%R [(1, 0)]%R) (RMach wit_ph [(0, 0)]%R [(0, 0)]%R)). repeat split.
Qed.
