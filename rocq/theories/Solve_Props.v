(** * C64, C65: solving with the quantum geometric tensor, and the preconditioner *)
From Coq Require Import List Arith Bool Reals Lra Lia.
From Verif Require Import Base Rings ARNN_Model Estim_Model Estim_Proofs QGT_Model QGT_Spec Solve_Model Solve_Spec Solve_Proofs.
Import ListNotations.
Open Scope R_scope.

(** C64.  If the solver finds a solution of the system it is handed, then S.solve returns
    a vector with (S + shift) x = y, S = Re <dO^dagger dO>, however the samples are spread
    over ranks.  QGTOnTheFly, for any mixture of parameters and any guess: *)
Theorem C64_onthefly : forall ls ranks shift sol y x0, even_ranks ranks ->
  exact_on (typed ls) (fun k => (k < n_pars ls)%nat) (matmul_onthefly ls ranks shift) sol ->
  exists x, solve_onthefly ls ranks shift sol y x0 = Ok x /\ natural_gradient ls (concat ranks) shift x y.
Proof. exact solve_onthefly_main. Qed.
Print Assumptions C64_onthefly.

(** QGTJacobianPyTree, with a guess only if no parameter is complex (see C65): *)
Theorem C64_pytree_partial : forall m ls ranks shift sol y x0,
  even_ranks ranks -> ok_mode m (concat ranks) -> x0 = None \/ has_complex ls = false ->
  exact (is_coord ls) (mat_vec_pytree rR coord (real_leaves 0 ls) (oks_pytree m ranks) shift) sol ->
  exists x, solve_pytree m ls ranks shift false sol y x0 = Ok x /\ natural_gradient ls (concat ranks) shift x y.
Proof. exact solve_pytree_main. Qed.
Print Assumptions C64_pytree_partial.

(** QGTJacobianDense, for homogeneous parameters (C50): *)
Theorem C64_dense_partial : forall m ls ranks shift sol y x0,
  even_ranks ranks -> ok_mode m (concat ranks) -> homogeneous ls -> x0 = None \/ has_complex ls = false ->
  exact (fun i => (i < length (reim_columns ls))%nat)
    (mat_vec_dense rR nat (seq 0 (length (reim_columns ls)))
      (map (map (fun r i => r (nth i (reim_columns ls) (O, false)))) (oks_dense m ranks)) shift) sol ->
  exists x, solve_dense m ls ranks shift false sol y x0 = Ok x /\ natural_gradient ls (concat ranks) shift x y.
Proof. exact solve_dense_main. Qed.
Print Assumptions C64_dense_partial.

(** With rescale_shift the solution is that of S + shift diag(S), although the system
    handed to the solver is another one. *)
Theorem C64_pytree_rescaled : forall m ls ranks shift sol y x0,
  even_ranks ranks -> ok_mode m (concat ranks) -> x0 = None \/ has_complex ls = false ->
  (forall c, is_coord ls c -> diagonal (concat ranks) c <> 0) ->
  exact (is_coord ls) (mat_vec_pytree rR coord (real_leaves 0 ls)
     (fst (rescale rR coord sqrt Rdiv (oks_pytree m ranks))) shift) sol ->
  exists x, solve_pytree m ls ranks shift true sol y x0 = Ok x /\ natural_gradient_rescaled ls (concat ranks) shift x y.
Proof. exact solve_pytree_rescaled. Qed.
Print Assumptions C64_pytree_rescaled.
Theorem C64_dense_rescaled : forall m ls ranks shift sol y x0,
  even_ranks ranks -> ok_mode m (concat ranks) -> homogeneous ls -> x0 = None \/ has_complex ls = false ->
  (forall c, is_coord ls c -> diagonal (concat ranks) c <> 0) ->
  exact (fun i => (i < length (reim_columns ls))%nat)
    (mat_vec_dense rR nat (seq 0 (length (reim_columns ls))) (fst (rescale rR nat sqrt Rdiv
      (map (map (fun r i => r (nth i (reim_columns ls) (O, false)))) (oks_dense m ranks)))) shift) sol ->
  exists x, solve_dense m ls ranks shift true sol y x0 = Ok x /\ natural_gradient_rescaled ls (concat ranks) shift x y.
Proof. exact solve_dense_rescaled. Qed.
Print Assumptions C64_dense_rescaled.

(** Mode "holomorphic". *)
Theorem C64_holomorphic : forall ls ranks shift sol sol' y x0,
  even_ranks ranks -> holomorphic ls (concat ranks) ->
  exact (fun k => (k < n_pars ls)%nat) (mat_vec_pytree cC nat (holo_leaves ls) (oks_holo ls ranks) (shift, 0)) sol ->
  exact (fun k => (k < n_pars ls)%nat) (mat_vec_dense cC nat (seq 0 (n_pars ls)) (oks_holo ls ranks) (shift, 0)) sol' ->
  (exists x, solve_pytree_holo ls ranks shift sol y x0 = Ok x /\ natural_gradient_holo (n_pars ls) (concat ranks) shift x y) /\
  (exists x, solve_dense_holo ls ranks shift sol' y x0 = Ok x /\ natural_gradient_holo (n_pars ls) (concat ranks) shift x y).
Proof. exact solve_holo_main. Qed.
Print Assumptions C64_holomorphic.

(** For a positive shift there is only one such vector: all implementations and all
    solvers, with or without a guess, return the same natural gradient. *)
Theorem C64_unique : forall ls ss shift x x' y, 0 < shift ->
  natural_gradient ls ss shift x y -> natural_gradient ls ss shift x' y -> same_vector ls x x'.
Proof. exact solution_unique. Qed.
Print Assumptions C64_unique.

(** svd, cholesky, LU and solve, which work on the dense matrix, are such solvers if the
    routine solves dense systems. *)
Theorem C64_direct_pytree : forall m ls ranks shift routine y x0,
  even_ranks ranks -> ok_mode m (concat ranks) -> x0 = None \/ has_complex ls = false ->
  let M := to_dense_jac rR coord (oks_pytree m ranks) shift (fun c d => (fst c =? fst d)%nat && Bool.eqb (snd c) (snd d))%bool in
  exact_dense rR (concat (real_leaves 0 ls)) M routine ->
  exists x, solve_pytree m ls ranks shift false (direct M routine) y x0 = Ok x /\ natural_gradient ls (concat ranks) shift x y.
Proof. exact direct_pytree. Qed.
Print Assumptions C64_direct_pytree.
Theorem C64_direct_dense : forall m ls ranks shift routine y x0,
  even_ranks ranks -> ok_mode m (concat ranks) -> homogeneous ls -> x0 = None \/ has_complex ls = false ->
  let M := to_dense_jac rR nat (map (map (fun r i => r (nth i (reim_columns ls) (O, false)))) (oks_dense m ranks)) shift Nat.eqb in
  exact_dense rR (seq 0 (length (reim_columns ls))) M routine ->
  exists x, solve_dense m ls ranks shift false (direct M routine) y x0 = Ok x /\ natural_gradient ls (concat ranks) shift x y.
Proof. exact direct_dense. Qed.
Print Assumptions C64_direct_dense.
Theorem C64_direct_onthefly_real : forall ls ranks shift routine y x0,
  even_ranks ranks -> Forall (fun b => fst b = false) ls ->
  let M := to_dense_onthefly ls ranks shift false in
  exact_dense cC (seq 0 (n_pars ls)) M routine ->
  exists x, solve_onthefly ls ranks shift (direct M routine) y x0 = Ok x /\ natural_gradient ls (concat ranks) shift x y.
Proof. exact direct_onthefly_real. Qed.
Print Assumptions C64_direct_onthefly_real.
Theorem C64_direct_onthefly_holomorphic : forall ls ranks shift routine y x0,
  even_ranks ranks -> holomorphic ls (concat ranks) ->
  let M := to_dense_onthefly ls ranks shift true in
  exact_dense cC (seq 0 (n_pars ls)) M routine ->
  exists x, solve_onthefly ls ranks shift (direct M routine) y x0 = Ok x /\ natural_gradient ls (concat ranks) shift x y.
Proof. exact direct_onthefly_holo. Qed.
Print Assumptions C64_direct_onthefly_holomorphic.

(** C64 is false for QGTOnTheFly with a direct solver and complex parameters if log psi is
    not holomorphic: the columns of the dense matrix for the imaginary parts are missing.
    log psi = Re(p) s for s = 1, 3. *)
Theorem C64_direct_onthefly_refuted : exists ls ranks shift y, even_ranks ranks /\ 0 < shift /\
  let M := to_dense_onthefly ls ranks shift true in
  (exists routine, exact_dense cC (seq 0 (n_pars ls)) M routine) /\
  forall routine x0 x, exact_dense cC (seq 0 (n_pars ls)) M routine ->
    solve_onthefly ls ranks shift (direct M routine) y x0 = Ok x -> ~ natural_gradient ls (concat ranks) shift x y.
Proof. exact direct_onthefly_counter. Qed.
Print Assumptions C64_direct_onthefly_refuted.

(** C65.  The guess used by LinearPreconditioner is the opposite of the documented one:
    with solver_restart=True each solve starts from the last solution, with False (the
    default) every solve starts afresh. *)
Theorem C65_inverted : forall VS V (solve : VS -> V -> option V -> res V) restart calls,
  fst (prec_calls solve (new_prec restart) calls) = successive (documented_guess (negb restart)) solve None calls.
Proof. exact @prec_inverted. Qed.
Print Assumptions C65_inverted.
Theorem C65_documented_refuted : exists (solve : unit -> nat -> option nat -> res nat) restart calls,
  fst (prec_calls solve (new_prec restart) calls) <> successive (documented_guess restart) solve None calls.
Proof. exact documented_counter. Qed.
Print Assumptions C65_documented_refuted.

(** Whatever the guesses, if every solve succeeds with a solution, so does every call of
    the preconditioner in any sequence. *)
Theorem C65_sequence : forall VS V (P : VS -> V -> V -> Prop) (solve : VS -> V -> option V -> res V) restart calls,
  (forall s f g, exists x, solve s f g = Ok x /\ P s f x) ->
  Forall2 (fun c r => exists x, r = Ok x /\ P (fst c) (snd c) x) calls (fst (prec_calls solve (new_prec restart) calls)).
Proof. exact prec_sequence. Qed.
Print Assumptions C65_sequence.
(** For instance with QGTOnTheFly: *)
Theorem C65_onthefly : forall ls shift sol restart (calls : list (list (list sample) * (nat -> cpx))),
  Forall (fun c => even_ranks (fst c) /\
    exact_on (typed ls) (fun k => (k < n_pars ls)%nat) (matmul_onthefly ls (fst c) shift) sol) calls ->
  Forall2 (fun c r => exists x, r = Ok x /\ natural_gradient ls (concat (fst c)) shift x (snd c)) calls
    (fst (prec_calls (fun ranks f g => solve_onthefly ls ranks shift sol f g) (new_prec restart) calls)).
Proof. exact prec_onthefly. Qed.
Print Assumptions C65_onthefly.

(** With solver_restart=True, a Jacobian QGT and a complex parameter every call after the
    first raises ValueError, whatever the solver. *)
Theorem C65_restart_refuted : forall m ls shift resc sol calls first, has_complex ls = true ->
  fst (prec_calls (fun ranks f g => solve_pytree m ls ranks shift resc sol f g) (new_prec true) (first :: calls))
  = solve_pytree m ls (fst first) shift resc sol (snd first) None :: map (fun _ => Err ValueError) calls.
Proof. exact restart_fails. Qed.
Print Assumptions C65_restart_refuted.

(** Concrete cases: one real parameter, log psi = p s for s = 1, 3: S = 1. *)
Example exact_inhabited : exact_on (typed [(false, 1%nat)]) (fun k => (k < 1)%nat)
  (matmul_onthefly [(false, 1%nat)] re_ranks 1) (fun _ y _ k => (fst (y k) / 2, 0)).
Proof.
  intros y x0 Hy k Hk. assert (k = 0%nat) by lia. subst k.
  rewrite (QGT_Proofs.onthefly_main _ _ _ _ _ re_even) by (cbn; lia).
  rewrite one_geometric. cbn [fst]. rewrite (surjective_pairing (y 0%nat)), (Hy 0%nat eq_refl). cbn [fst]. f_equal. field.
Qed.
Example exact_pytree_inhabited : exact (is_coord [(false, 1%nat)])
  (mat_vec_pytree rR coord (real_leaves 0 [(false, 1%nat)]) (oks_pytree MReal re_ranks) 1) (fun _ y _ c => y c / 2).
Proof.
  intros y x0 [k p] [Hk Hp]. cbn [n_pars fst snd Nat.add] in *. assert (k = 0%nat) by lia. subst k.
  assert (p = false) by (destruct p; [discriminate (Hp eq_refl)|reflexivity]). subst p.
  pose proof (QGT_Proofs.pytree_main MReal [(false, 1%nat)] re_ranks 1 (fun k => (y (k, false) / 2, 0)) 0 re_even) as E.
  rewrite one_geometric in E. cbn [fst] in E. unfold matmul_pytree, reassemble in E. cbn [flag Nat.ltb Nat.leb] in E.
  assert (Hm : ok_mode MReal (concat re_ranks)).
  { intros s [<-|[<-|[]]] [k q]; destruct q; reflexivity. }
  specialize (E Hm ltac:(cbn; lia)). apply (f_equal fst) in E. cbn [fst] in E.
  etransitivity; [|transitivity ((1 + 1) * (y (0%nat, false) / 2)); [exact E|]].
  2:{ match goal with |- ?a = ?b => change (@eq R a b) end. field. }
  rewrite !(QGT_Proofs.mat_vec_pytree_is rR rR_laws).
  apply (kernel_ext rR); [|reflexivity]. intros d [<-|[]]. reflexivity.
Qed.
Example diagonal_inhabited : forall c, is_coord [(false, 1%nat)] c -> diagonal (concat re_ranks) c <> 0.
Proof.
  intros [k p] [Hk Hp]. cbn [n_pars fst snd Nat.add] in *. assert (k = 0%nat) by lia. subst k.
  assert (p = false) by (destruct p; [discriminate (Hp eq_refl)|reflexivity]). subst p.
  unfold diagonal, ravg, avg, delta, avg, entry, re_ranks, re_sample, rscal.
  cbn [map concat app lsum length jx jy fst snd INR cC radd rmul rsub rconj r0]. apply Rgt_not_eq. lra.
Qed.
