(** * C109: the drivers VMC and SteadyState *)
From Coq Require Import String List Arith Bool Reals.
From Verif Require Import Base Rings ARNN_Model ToArray_Model Estim_Model Estim_Spec QGT_Model QGT_Spec Solve_Spec Vmc_Model Vmc_Spec Vmc_Examples.
From Verif Require Vmc_Proofs Vmc_Ctor Estim_Proofs.
Import ListNotations.
Open Scope R_scope.

(** With the natural gradient, S from any samples: what is reported is the energy of the
    current parameters; the energy falls along the step at least as fast as 2 shift |d|^2, and
    a small enough step lowers it unless all forces vanish *)
Theorem C109_natural : forall ls N O conn log_psi jx jy p, (0 < N)%nat -> hermitian N O -> describes N O conn ->
  differentiable ls N log_psi p (jx p) (jy p) ->
  forall ss shift pre e d, 0 < shift -> (forall y x, pre p y = Ok x -> natural_gradient ls ss shift x y) ->
  forward_and_backward R ls (exact_state ls N conn log_psi jx jy) pre p = Ok (e, d) ->
  e = energy_of N O log_psi p /\
  (exists l, derivable_pt_lim (fun lr => energy_of N O log_psi (sgd ls lr d p)) 0 l /\ l <= - 2 * shift * inner ls d d) /\
  (not_stationary ls (forces ls N conn log_psi (jx p) (jy p) p) ->
   exists eps, 0 < eps /\ forall lr, 0 < lr < eps -> energy_of N O log_psi (sgd ls lr d p) < energy_of N O log_psi p).
Proof. exact Vmc_Proofs.whole_natural. Qed.
Print Assumptions C109_natural.
(** The same without a preconditioner; the slope is exactly -2 |d|^2 *)
Theorem C109_plain : forall ls N O conn log_psi jx jy p, (0 < N)%nat -> hermitian N O -> describes N O conn ->
  differentiable ls N log_psi p (jx p) (jy p) ->
  forall e d, forward_and_backward R ls (exact_state ls N conn log_psi jx jy) (fun _ y => Ok y) p = Ok (e, d) ->
  e = energy_of N O log_psi p /\
  derivable_pt_lim (fun lr => energy_of N O log_psi (sgd ls lr d p)) 0 (- 2 * inner ls d d) /\
  (not_stationary ls (forces ls N conn log_psi (jx p) (jy p) p) ->
   exists eps, 0 < eps /\ forall lr, 0 < lr < eps -> energy_of N O log_psi (sgd ls lr d p) < energy_of N O log_psi p).
Proof. exact Vmc_Proofs.whole_identity. Qed.
Print Assumptions C109_plain.
(** If all forces vanish the parameters stay, whatever the learning rate *)
Theorem C109_stationary : forall ls N conn log_psi jx jy p ss shift pre e d lr, 0 < shift ->
  (forall y x, pre p y = Ok x -> natural_gradient ls ss shift x y) ->
  forward_and_backward R ls (exact_state ls N conn log_psi jx jy) pre p = Ok (e, d) ->
  ~ not_stationary ls (forces ls N conn log_psi (jx p) (jy p) p) ->
  forall k, (k < n_pars ls)%nat -> sgd ls lr d p k = p k.
Proof. exact Vmc_Proofs.whole_stationary. Qed.
Print Assumptions C109_stationary.
(** For any state and preconditioner: real parameters stay real; one report per step, of the
    parameters before the update; the next parameters are those after it *)
Theorem C109_real : forall E ls eg pre lr n p es q, proper ls p -> steps E ls eg pre lr n p = Ok (es, q) -> proper ls q.
Proof. exact Vmc_Proofs.steps_proper. Qed.
Print Assumptions C109_real.
Theorem C109_steps : forall E ls eg pre lr n p es q, steps E ls eg pre lr n p = Ok (es, q) ->
  length es = n /\ exists ps, length ps = S n /\ nth 0 ps p = p /\ nth n ps p = q /\
  forall i, (i < n)%nat -> exists e d, forward_and_backward E ls eg pre (nth i ps p) = Ok (e, d) /\ nth_error es i = Some e /\
    nth (S i) ps p = sgd ls lr d (nth i ps p).
Proof. exact Vmc_Proofs.steps_trace. Qed.
Print Assumptions C109_steps.

(** Constructors: when VMC is built, with which preconditioner, and what is written *)
Theorem C109_vmc_init : forall hs hh prec sr restart h,
  (hs <> hh -> vmc_init hs hh prec sr restart h = (Err TypeError, h)) /\
  (hs = hh -> prec <> None -> sr <> None -> vmc_init hs hh prec sr restart h = (Err ValueError, h)) /\
  (hs = hh -> prec = None -> sr = None -> restart <> None -> vmc_init hs hh prec sr restart h = (Err ValueError, h)) /\
  (hs = hh -> prec = None -> sr = None -> restart = None -> exists d, vmc_init hs hh prec sr restart h = (Ok d, h) /\ d_prec d = None /\ d_count d = 0%nat) /\
  (forall r, hs = hh -> (prec = Some r /\ sr = None) \/ (prec = None /\ sr = Some r) ->
     exists d h', vmc_init hs hh prec sr restart h = (Ok d, h') /\ d_prec d = Some r /\ d_count d = 0%nat /\
       (forall q, q <> r -> h' q = h q) /\ h' r = match restart with Some b => b | None => h r end).
Proof. exact Vmc_Ctor.vmc_ctor. Qed.
Print Assumptions C109_vmc_init.
(** A refused construction writes nothing *)
Theorem C109_refused : forall hs hh prec sr restart h e h', vmc_init hs hh prec sr restart h = (Err e, h') -> h' = h.
Proof. exact Vmc_Ctor.vmc_refused. Qed.
Print Assumptions C109_refused.
Theorem C109_steady_init : forall hs hl prec sr restart h,
  steady_init false hs hl prec sr restart h = (Err TypeError, h) /\
  match vmc_init hs hs prec sr restart h, steady_init true hs hl prec sr restart h with
  | (Ok d, h1), (Ok d', h2) => d_prec d = d_prec d' /\ d_count d' = 0%nat /\ forall q, h1 q = h2 q
  | (Err e, h1), (Err e', h2) => e = e' /\ forall q, h1 q = h2 q
  | _, _ => False
  end.
Proof. exact Vmc_Ctor.steady_ctor. Qed.
Print Assumptions C109_steady_init.
(** SteadyState is built for a Lindbladian of another space *)
Theorem C109_steady_space_refuted : exists hs hl h d, hs <> hl /\ steady_init true hs hl None None None h = (Ok d, h).
Proof. exact Vmc_Ctor.steady_space. Qed.
Print Assumptions C109_steady_space_refuted.
(** Building a second driver with sr_restart changes the preconditioner of the first *)
Theorem C109_shared_refuted : exists h d1 h1 d2 h2 r, vmc_init 0 0 (Some r) None (Some true) h = (Ok d1, h1) /\
  vmc_init 0 0 (Some r) None (Some false) h1 = (Ok d2, h2) /\ d_prec d1 = Some r /\ h1 r = true /\ h2 r = false.
Proof. exact Vmc_Ctor.shared. Qed.
Print Assumptions C109_shared_refuted.
(** info() never returns *)
Theorem C109_info_refuted : forall d, vmc_info d = Err AttributeError.
Proof. reflexivity. Qed.
Print Assumptions C109_info_refuted.

(** The hypotheses are met: one real parameter, amplitudes 1 and exp(t) *)
Example C109_ex_differentiable : forall p, differentiable one_real 2 ex_log p (ex_j p) (ex_j p).
Proof. exact ex_differentiable. Qed.
Example C109_ex_not_stationary :
  not_stationary one_real (forces one_real 2 Estim_Proofs.wit_conn ex_log (ex_j (fun _ => (0, 0))) (ex_j (fun _ => (0, 0))) (fun _ => (0, 0))).
Proof. exact ex_not_stationary. Qed.
Example C109_ex_natural : forall y, natural_gradient one_real [] 1 (fun k => (fst (y k), 0)) y.
Proof. exact ex_natural. Qed.
