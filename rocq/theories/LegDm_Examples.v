From Coq Require Import List Arith Lia Bool Reals Lra ZArith.
From Verif Require Import Base Rings ARNN_Model ARNN_Proofs ToArray_Model Estim_Model Estim_Spec Estim_Proofs Ansatz_Model Ansatz_Spec Ansatz_Proofs
  LegRbm_Model LegRbm_Spec LegRbm_Proofs LegRbm_Phase LegDm_Model LegDm_Spec LegDm_Proofs LegDm_Net LegDm_Final.
Import ListNotations.
Open Scope R_scope.
Definition spin1 (x : config) : Prop := x = [1] \/ x = [-1].
Definition good : purif := Purif (fun _ _ => 1) (fun _ _ => 1) (fun _ _ => 1) (fun _ _ => 1) (Some (fun _ => 1, fun _ => 1, fun _ => 3)).
Lemma ex_off_axis :
  (forall x y j, spin1 x -> spin1 y -> (j < 1)%nat -> off_axis (theta_m 1 good x y j)) /\ (forall x, spin1 x -> sized 1 x) /\ spin1 [1] /\ spin1 [-1].
Proof.
  split; [|split; [|split; [left|right]; reflexivity]].
  - intros x y j [-> | ->] [-> | ->] _; left; unfold theta_m, rdot, fsum; cbn; lra.
  - intros x [-> | ->]; reflexivity.
Qed.
Lemma ex_log_trace : log_trace true (fun _ _ => Some (0, 0)) two = Ok (Some 0) /\ trace_of (fun _ _ => Some (0, 0)) two = (2, 0).
Proof.
  split.
  - rewrite (log_trace_value _ two (0, 0) [(0, 0)]) by reflexivity. unfold greatest, rsums. cbn. do 2 f_equal. rewrite Rmax_left by lra. ring.
  - unfold trace_of, rho_of, two. cbn [map lsum fold_right amplitude]. rewrite cexp_real, exp_0. cbn. f_equal; ring.
Qed.
