From Coq Require Import String List Arith Lia Bool Reals Lra FunctionalExtensionality.
From Verif Require Import Base Rings ARNN_Model ARNN_Proofs ToArray_Model Estim_Model Estim_Spec Estim_Proofs QGT_Model QGT_Spec QGT_Proofs Solve_Spec Solve_Proofs Vmc_Model Vmc_Spec Vmc_Proofs.
Import ListNotations.
Open Scope R_scope.
(** one real parameter: amplitudes 1 and exp(t), the projector on the second state *)
Definition one_real : leaves := [(false, 1%nat)].
Definition ex_log (p : nat -> cpx) (s : nat) : cpx := wit_log (fst (p 0%nat)) s.
Definition ex_j (p : nat -> cpx) (k s : nat) : cpx := wit_g s.
Lemma ex_differentiable p : differentiable one_real 2 ex_log p (ex_j p) (ex_j p).
Proof.
  intros v s Hs. unfold ex_log, moved, one_real, ex_j, wit_log, wit_g. cbn -[cderiv]. unfold rscal. destruct (s =? 1)%nat; cbn -[cderiv].
  - split; cbn [fst snd].
    + apply (dl_eq _ _ (0 + 1 * fst (v 0%nat))); [|ring]. apply (derivable_pt_lim_plus (fun _ => fst (p 0%nat)) (fun t => t * fst (v 0%nat))).
      * apply derivable_pt_lim_const.
      * apply (dl_eq _ _ (1 * fst (v 0%nat) + 0 * 0)); [|ring]. apply (derivable_pt_lim_mult (fun t => t) (fun _ => fst (v 0%nat)) 0 1 0); [apply derivable_pt_lim_id|apply derivable_pt_lim_const].
    + apply (dl_eq _ _ 0); [apply derivable_pt_lim_const|ring].
  - split; cbn [fst snd]; (apply (dl_eq _ _ 0); [apply derivable_pt_lim_const|ring]).
Qed.
Lemma ex_force : forces one_real 2 wit_conn ex_log (ex_j (fun _ => (0, 0))) (ex_j (fun _ => (0, 0))) (fun _ => (0, 0)) 0 = (/ 4, 0).
Proof. unfold forces, one_real. cbn [flag]. unfold ex_log, ex_j. cbn. f_equal. exact wit_grad. Qed.
Lemma ex_not_stationary : not_stationary one_real (forces one_real 2 wit_conn ex_log (ex_j (fun _ => (0, 0))) (ex_j (fun _ => (0, 0))) (fun _ => (0, 0))).
Proof. exists 0%nat. split; [cbn; lia|]. left. rewrite ex_force. cbn. lra. Qed.
(** with no samples S vanishes, and dividing by the shift solves *)
Lemma ex_natural y : natural_gradient one_real [] 1 (fun k => (fst (y k), 0)) y.
Proof.
  intros k Hk. unfold geometric, ravg, avg, rscal. cbn. destruct k as [|k]; [|cbn in Hk; lia]. cbn. f_equal. ring.
Qed.
