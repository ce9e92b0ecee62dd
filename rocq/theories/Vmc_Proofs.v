From Coq Require Import String List Arith Lia Bool Reals Lra FunctionalExtensionality.
From Verif Require Import Base Rings ARNN_Model ARNN_Proofs ToArray_Model Estim_Model Estim_Spec Estim_Proofs QGT_Model QGT_Spec QGT_Proofs Solve_Spec Solve_Proofs Vmc_Model Vmc_Spec.
Import ListNotations.
Open Scope R_scope.

Ltac rr := match goal with |- ?a = ?b => change (@eq R a b) end; ring.
(** ** linearity of the force *)
Lemma grad_real_sum lp conn smp du dv : grad_real lp conn smp du dv
  = lsum rR (map (fun s => fst (cotangent lp conn smp (fst s) (snd s)) * du (snd s) - snd (cotangent lp conn smp (fst s) (snd s)) * dv (snd s)) smp).
Proof.
  unfold grad_real. rewrite fst_lsum_map. f_equal. apply map_ext. intros s. unfold vjp_rc. cbn [cC radd rmul rconj fst snd]. ring.
Qed.
Lemma grad_real_add lp conn smp a b c d : grad_real lp conn smp (fun s => a s + b s) (fun s => c s + d s)
  = grad_real lp conn smp a c + grad_real lp conn smp b d.
Proof.
  rewrite !grad_real_sum. symmetry. etransitivity; [exact (eq_sym (lsum_add rR rR_laws _ _ smp))|]. apply (lsum_ext rR). intros s _. cbn [radd rR]. rr.
Qed.
Lemma grad_real_scal lp conn smp r a c : grad_real lp conn smp (fun s => r * a s) (fun s => r * c s) = r * grad_real lp conn smp a c.
Proof.
  rewrite !grad_real_sum. symmetry. etransitivity; [exact (eq_sym (lsum_scal rR rR_laws r _ smp))|]. apply (lsum_ext rR). intros s _. cbn [rmul rR]. rr.
Qed.
Lemma grad_real_fsum lp conn smp n (g : nat -> nat -> cpx) :
  grad_real lp conn smp (fun s => fst (fsum cC n (fun k => g k s))) (fun s => snd (fsum cC n (fun k => g k s)))
  = fsum rR n (fun k => grad_real lp conn smp (fun s => fst (g k s)) (fun s => snd (g k s))).
Proof.
  induction n as [|n IH]; cbn [fsum].
  - rewrite grad_real_sum. cbn [r0 cC rR fst snd]. apply (lsum_zero rR rR_laws). intros s _. cbn [r0 rR]. rr.
  - cbn [radd cC fst snd]. etransitivity; [exact (grad_real_add lp conn smp _ _ _ _)|]. rewrite IH. reflexivity.
Qed.
Section Descent.
  Variables (ls : leaves) (N : nat) (O : nat -> nat -> cpx) (conn : nat -> list (nat * cpx)) (log_psi : (nat -> cpx) -> nat -> cpx)
            (p : nat -> cpx) (jx jy : nat -> nat -> cpx).
  Hypotheses (HN : (0 < N)%nat) (HO : hermitian N O) (HC : describes N O conn) (HD : differentiable ls N log_psi p jx jy).
  Let F := forces ls N conn log_psi jx jy p.
  Lemma moved_zero v : moved ls p v 0 = p.
  Proof. apply functional_extensionality. intros k. unfold moved, rscal. destruct (flag ls k); apply injective_projections; cbn; ring. Qed.
  Lemma directional v : derivable_pt_lim (fun t => energy_of N O log_psi (moved ls p v t)) 0 (2 * inner ls v F).
  Proof.
    destruct (gradient_main N HN O HO conn HC (fun t => log_psi (moved ls p v t)) 0 _ (HD v)) as (d & D & E).
    refine (dl_eq _ _ _ _ D _). rewrite E. f_equal. rewrite moved_zero.
    rewrite (grad_real_fsum _ _ _ (n_pars ls) (fun k s => radd cC (rscal (fst (v k)) (jx k s)) (if flag ls k then rscal (snd (v k)) (jy k s) else (0, 0)))).
    rewrite inner_is. apply (fsum_ext rR). intros k _. unfold F, forces. destruct (flag ls k).
    - rewrite grad_complex_is. cbn [radd cC fst snd]. etransitivity; [exact (grad_real_add _ _ _ _ _ _ _)|]. unfold rscal. cbn [fst snd]. rewrite !grad_real_scal. reflexivity.
    - cbn [radd cC fst snd]. etransitivity; [exact (grad_real_add _ _ _ _ _ _ _)|]. unfold rscal. cbn [fst snd]. rewrite grad_real_scal.
      rewrite (grad_real_sum _ _ _ (fun _ => 0)). rewrite (lsum_zero rR rR_laws); [reflexivity|]. intros s _. cbn [r0 rR]. rr.
  Qed.
  Lemma moved_sgd d t : sgd ls t d p = moved ls p (fun k => ropp cC (d k)) t.
  Proof. apply functional_extensionality. intros k. unfold sgd, moved, rscal. destruct (flag ls k); apply injective_projections; cbn; ring. Qed.
  Lemma inner_opp u v : inner ls (fun k => ropp cC (u k)) v = - inner ls u v.
  Proof.
    rewrite !inner_is. replace (- fsum rR (n_pars ls) (fun k => fst (u k) * fst (v k) + (if flag ls k then snd (u k) * snd (v k) else 0)))
      with (-1 * fsum rR (n_pars ls) (fun k => fst (u k) * fst (v k) + (if flag ls k then snd (u k) * snd (v k) else 0))) by ring.
    etransitivity; [|exact (fsum_scal rR rR_laws _ (-1) _)]. apply (fsum_ext rR). intros k _. cbn [rmul rR ropp cC fst snd]. destruct (flag ls k); rr.
  Qed.
  Lemma sgd_derivative d : derivable_pt_lim (fun t => energy_of N O log_psi (sgd ls t d p)) 0 (- 2 * inner ls d F).
  Proof.
    replace (fun t => energy_of N O log_psi (sgd ls t d p)) with (fun t => energy_of N O log_psi (moved ls p (fun k => ropp cC (d k)) t)).
    - refine (dl_eq _ _ _ _ (directional _) _). rewrite inner_opp. ring.
    - apply functional_extensionality. intros t. rewrite moved_sgd. reflexivity.
  Qed.
  Lemma sgd_zero d : sgd ls 0 d p = p.
  Proof. rewrite moved_sgd. apply moved_zero. Qed.
  Lemma decreases d : 0 < inner ls d F -> exists eps, 0 < eps /\ forall lr, 0 < lr < eps -> energy_of N O log_psi (sgd ls lr d p) < energy_of N O log_psi p.
  Proof.
    intros P. destruct (sgd_derivative d (inner ls d F) P) as [[eps He] H]. exists eps. split; [exact He|]. intros lr [L1 L2].
    specialize (H lr ltac:(lra)). cbn [pos] in H. rewrite Rplus_0_l, sgd_zero, Rabs_right in H by lra. specialize (H L2).
    set (A := energy_of N O log_psi (sgd ls lr d p)) in *. set (B := energy_of N O log_psi p) in *. apply Rabs_def2 in H. destruct H as [H _].
    assert ((A - B) / lr < 0) by lra. assert (A - B < 0); [|lra].
    replace (A - B) with ((A - B) / lr * lr) by (field; lra). nra.
  Qed.
End Descent.

(** ** directions *)
Lemma inner_take_real ls d y : inner ls (take_real ls d) y = inner ls d y.
Proof. rewrite !inner_is. apply (fsum_ext rR). intros k _. unfold take_real. destruct (flag ls k); reflexivity. Qed.
Lemma inner_ext_r ls u v w : (forall k, (k < n_pars ls)%nat -> fst (v k) = fst (w k) /\ (flag ls k = true -> snd (v k) = snd (w k))) -> inner ls u v = inner ls u w.
Proof.
  intros H. rewrite !inner_is. apply (fsum_ext rR). intros k Hk. destruct (H k Hk) as [A B]. rewrite A. destruct (flag ls k); [rewrite B by reflexivity|]; reflexivity.
Qed.
Lemma natural_inner ls ss shift x y : natural_gradient ls ss shift x y -> inner ls x y = inner ls x (geometric ls ss shift x).
Proof.
  intros H. apply inner_ext_r. intros k Hk. rewrite (H k Hk). cbn [fst snd]. split; [reflexivity|]. intros ->. reflexivity.
Qed.
Lemma natural_bound ls ss shift x y : natural_gradient ls ss shift x y -> shift * inner ls x x <= inner ls x y.
Proof. intros H. rewrite (natural_inner _ _ _ _ _ H). apply positive_main. Qed.
Lemma inner_nonneg ls x : 0 <= inner ls x x.
Proof. rewrite inner_is. apply fsum_nonneg. intros k _. destruct (flag ls k); nra. Qed.
Lemma inner_zero ls x : inner ls x x = 0 -> forall k, (k < n_pars ls)%nat -> fst (x k) = 0 /\ (flag ls k = true -> snd (x k) = 0).
Proof.
  intros H k Hk. split.
  - destruct (Req_dec (fst (x k)) 0) as [E|E]; [exact E|]. pose proof (inner_pos ls x k Hk (or_introl E)). lra.
  - intros Hf. destruct (Req_dec (snd (x k)) 0) as [E|E]; [exact E|]. pose proof (inner_pos ls x k Hk (or_intror (Logic.conj Hf E))). lra.
Qed.
Lemma inner_left_zero ls x v : (forall k, (k < n_pars ls)%nat -> fst (x k) = 0 /\ (flag ls k = true -> snd (x k) = 0)) -> inner ls x v = 0.
Proof.
  intros H. rewrite inner_is. apply (fsum_zero rR rR_laws). intros k Hk. destruct (H k Hk) as [A B]. rewrite A. cbn [r0 rR].
  destruct (flag ls k); [rewrite B by reflexivity|]; rr.
Qed.
Lemma natural_strict ls ss shift x y : 0 < shift -> natural_gradient ls ss shift x y -> not_stationary ls y -> 0 < inner ls x y.
Proof.
  intros Hs H (k & Hk & Hn). pose proof (natural_bound _ _ _ _ _ H) as B. pose proof (inner_nonneg ls x) as P.
  destruct (Req_dec (inner ls x x) 0) as [Z|Z]; [|nra]. exfalso. pose proof (inner_zero ls x Z) as X.
  assert (Y : inner ls y (geometric ls ss shift x) = 0) by (rewrite symmetric_main; apply inner_left_zero; exact X).
  pose proof (inner_pos ls y k Hk Hn) as Q. rewrite <- (inner_ext_r ls y y (geometric ls ss shift x)) in Y; [lra|].
  intros j Hj. rewrite (H j Hj). cbn [fst snd]. split; [reflexivity|]. intros ->. reflexivity.
Qed.
Lemma natural_stationary ls ss shift x y : 0 < shift -> natural_gradient ls ss shift x y ->
  (forall k, (k < n_pars ls)%nat -> fst (y k) = 0 /\ (flag ls k = true -> snd (y k) = 0)) ->
  forall k, (k < n_pars ls)%nat -> fst (x k) = 0 /\ (flag ls k = true -> snd (x k) = 0).
Proof.
  intros Hs H Z. apply inner_zero. pose proof (natural_bound _ _ _ _ _ H) as B. rewrite (inner_comm ls x y), (inner_left_zero ls y x Z) in B. pose proof (inner_nonneg ls x). nra.
Qed.
(** ** steps of the drivers *)
Section Steps.
  Variables (E : Type) (ls : leaves).
  Lemma step_is eg pre p e d : forward_and_backward E ls eg pre p = Ok (e, d) ->
    exists g x, eg p = Ok (e, g) /\ pre p g = Ok x /\ d = take_real ls x.
  Proof.
    unfold forward_and_backward. destruct (eg p) as [[e' g]|] eqn:Eg; [|discriminate]. cbn [bind]. destruct (pre p g) as [x|] eqn:Ep; [|discriminate].
    cbn [bind]. intros H. injection H as <- <-. exists g, x. repeat split; assumption || reflexivity.
  Qed.
  Lemma take_real_proper x : proper ls (take_real ls x).
  Proof. intros k Hk. unfold take_real. rewrite Hk. reflexivity. Qed.
  Lemma sgd_proper lr d p : proper ls p -> proper ls (sgd ls lr d p).
  Proof. intros H k Hk. unfold sgd. rewrite Hk. exact (H k Hk). Qed.
  Lemma steps_proper eg pre lr n : forall p es q, proper ls p -> steps E ls eg pre lr n p = Ok (es, q) -> proper ls q.
  Proof.
    induction n as [|n IH]; intros p es q Hp; cbn [steps]; [intros H; injection H as <- <-; exact Hp|].
    destruct (forward_and_backward E ls eg pre p) as [[e d]|]; [|discriminate]. cbn [bind]. destruct (steps E ls eg pre lr n (sgd ls lr d p)) as [[es' q']|] eqn:Es; [|discriminate].
    cbn [bind]. intros H. injection H as <- <-. exact (IH _ _ _ (sgd_proper lr d p Hp) Es).
  Qed.
  (** the steps one after the other *)
  Lemma steps_trace eg pre lr n : forall p es q, steps E ls eg pre lr n p = Ok (es, q) ->
    length es = n /\ exists ps, length ps = S n /\ nth 0 ps p = p /\ nth n ps p = q /\
    forall i, (i < n)%nat -> exists e d, forward_and_backward E ls eg pre (nth i ps p) = Ok (e, d) /\ nth_error es i = Some e /\
      nth (S i) ps p = sgd ls lr d (nth i ps p).
  Proof.
    induction n as [|n IH]; intros p es q; cbn [steps].
    - intros H. injection H as <- <-. split; [reflexivity|]. exists [p]. repeat split; try reflexivity. intros i Hi. lia.
    - destruct (forward_and_backward E ls eg pre p) as [[e d]|] eqn:Ef; [|discriminate]. cbn [bind]. destruct (steps E ls eg pre lr n (sgd ls lr d p)) as [[es' q']|] eqn:Es; [|discriminate].
      cbn [bind]. intros H. injection H as <- <-. destruct (IH _ _ _ Es) as (L & ps & Lp & P0 & Pn & Hi). split; [cbn [length]; lia|].
      exists (p :: ps). split; [cbn [length]; lia|]. split; [reflexivity|]. split.
      + cbn [nth]. rewrite (nth_indep _ p (sgd ls lr d p)) by lia. exact Pn.
      + intros [|i] Hl.
        * exists e, d. cbn [nth nth_error]. split; [exact Ef|]. split; [reflexivity|]. rewrite (nth_indep _ p (sgd ls lr d p)) by lia. exact P0.
        * destruct (Hi i ltac:(lia)) as (e' & d' & A & B & C). exists e', d'. cbn [nth nth_error]. rewrite !(nth_indep ps p (sgd ls lr d p)) by lia. repeat split; assumption.
  Qed.
End Steps.
Section Whole.
  Variables (ls : leaves) (N : nat) (O : nat -> nat -> cpx) (conn : nat -> list (nat * cpx)) (log_psi : (nat -> cpx) -> nat -> cpx)
            (jx jy : (nat -> cpx) -> nat -> nat -> cpx) (p : nat -> cpx).
  Hypotheses (HN : (0 < N)%nat) (HO : hermitian N O) (HC : describes N O conn) (HD : differentiable ls N log_psi p (jx p) (jy p)).
  Let F := forces ls N conn log_psi (jx p) (jy p) p.
  Lemma exact_energy q : fst (expect false (log_psi q) conn (full_sampling N (psi_of (log_psi q)))) = energy_of N O log_psi q.
  Proof. rewrite (expect_full N O conn (log_psi q) HC). reflexivity. Qed.
  Lemma whole_natural ss shift pre e d : 0 < shift -> (forall y x, pre p y = Ok x -> natural_gradient ls ss shift x y) ->
    forward_and_backward R ls (exact_state ls N conn log_psi jx jy) pre p = Ok (e, d) ->
    e = energy_of N O log_psi p /\
    (exists l, derivable_pt_lim (fun lr => energy_of N O log_psi (sgd ls lr d p)) 0 l /\ l <= - 2 * shift * inner ls d d) /\
    (not_stationary ls F -> exists eps, 0 < eps /\ forall lr, 0 < lr < eps -> energy_of N O log_psi (sgd ls lr d p) < energy_of N O log_psi p).
  Proof.
    intros Hs Hp H. destruct (step_is _ _ _ _ _ _ _ H) as (g & x & Eg & Ex & ->). injection Eg as <- <-. pose proof (Hp _ _ Ex) as Hx.
    split; [apply exact_energy|]. pose proof (natural_bound _ _ _ _ _ Hx) as B. split.
    - eexists. split; [exact (sgd_derivative ls N O conn log_psi p (jx p) (jy p) HN HO HC HD (take_real ls x))|].
      rewrite !inner_take_real. rewrite (inner_comm ls x (take_real ls x)), inner_take_real. fold F in B |- *. lra.
    - intros Hn. apply (decreases ls N O conn log_psi p (jx p) (jy p) HN HO HC HD). rewrite inner_take_real. exact (natural_strict _ _ _ _ _ Hs Hx Hn).
  Qed.
  Lemma whole_identity e d : forward_and_backward R ls (exact_state ls N conn log_psi jx jy) (fun _ y => Ok y) p = Ok (e, d) ->
    e = energy_of N O log_psi p /\
    derivable_pt_lim (fun lr => energy_of N O log_psi (sgd ls lr d p)) 0 (- 2 * inner ls d d) /\
    (not_stationary ls F -> exists eps, 0 < eps /\ forall lr, 0 < lr < eps -> energy_of N O log_psi (sgd ls lr d p) < energy_of N O log_psi p).
  Proof.
    intros H. destruct (step_is _ _ _ _ _ _ _ H) as (g & x & Eg & Ex & ->). injection Eg as <- <-. injection Ex as <-. split; [apply exact_energy|]. split.
    - refine (dl_eq _ _ _ _ (sgd_derivative ls N O conn log_psi p (jx p) (jy p) HN HO HC HD _) _). rewrite !inner_take_real. rewrite (inner_comm ls _ (take_real ls _)), inner_take_real. reflexivity.
    - intros (k & Hk & Hn). apply (decreases ls N O conn log_psi p (jx p) (jy p) HN HO HC HD). rewrite inner_take_real. exact (inner_pos ls F k Hk Hn).
  Qed.
  Lemma whole_stationary ss shift pre e d lr : 0 < shift -> (forall y x, pre p y = Ok x -> natural_gradient ls ss shift x y) ->
    forward_and_backward R ls (exact_state ls N conn log_psi jx jy) pre p = Ok (e, d) -> ~ not_stationary ls F -> forall k, (k < n_pars ls)%nat -> sgd ls lr d p k = p k.
  Proof.
    intros Hs Hp H Hn k Hk. destruct (step_is _ _ _ _ _ _ _ H) as (g & x & Eg & Ex & ->). injection Eg as <- <-. pose proof (Hp _ _ Ex) as Hx.
    assert (Z : forall k, (k < n_pars ls)%nat -> fst (F k) = 0 /\ (flag ls k = true -> snd (F k) = 0)).
    { intros j Hj. split.
      - destruct (Req_dec (fst (F j)) 0) as [A|A]; [exact A|]. exfalso. apply Hn. exists j. split; [exact Hj|left; exact A].
      - intros Hf. destruct (Req_dec (snd (F j)) 0) as [A|A]; [exact A|]. exfalso. apply Hn. exists j. split; [exact Hj|right; split; assumption]. }
    destruct (natural_stationary _ _ _ _ _ Hs Hx Z k Hk) as [A B]. unfold sgd, take_real, rscal.
    destruct (flag ls k) eqn:Ef; apply injective_projections; cbn; rewrite ?A, ?B by reflexivity; ring.
  Qed.
End Whole.
(** ** constructors *)
Lemma options_cases prec sr v h : options prec sr v h =
  match prec, sr, v with
  | Some _, Some _, _ => (Err ValueError, h)
  | None, None, Some _ => (Err ValueError, h)
  | None, None, None => (Ok None, h)
  | Some r, None, None | None, Some r, None => (Ok (Some r), h)
  | Some r, None, Some b | None, Some r, Some b => (Ok (Some r), set_restart h r b)
  end.
Proof. destruct prec, sr, v; reflexivity. Qed.
