(** * C107: stochastic reconfiguration of the legacy drivers, numpy version *)
From Coq Require Import String List Arith ZArith Bool Reals.
From Verif Require Import Base Rings ARNN_Model ToArray_Model Estim_Model LegSr_Model LegSr_Spec LegSr_Final.
Import ListNotations.
Open Scope R_scope.

(** Every rank returns the solution of (S + shift) x = f, S the covariance of all samples *)
Theorem C107_update_partial : forall n shift ranks t dense krylov c it k x0 f,
  balanced t ranks -> 0 < shift ->
  (forall k, exact_dense n (dense k)) -> (forall k, exact_krylov n (krylov k)) ->
  (it = false -> c = false -> length ranks = 1%nat /\ k <> Cho) ->
  length (compute_update n shift ranks dense krylov (Some c) it false k x0 f) = length ranks /\
  Forall (fun r => exists x, r = Ok x /\ natural n c shift (concat ranks) f x)
    (compute_update n shift ranks dense krylov (Some c) it false k x0 f).
Proof. intros n shift ranks t dense krylov c it k x0 f B Hs Hd Hk H. exact (update_natural n shift ranks t dense krylov B Hs Hd Hk c it k x0 f H). Qed.
Print Assumptions C107_update_partial.
(** The equation always has exactly one solution, for any samples *)
Theorem C107_exists : forall n c shift samples f, 0 < shift -> exists x, natural n c shift samples f x.
Proof. exact natural_exists. Qed.
Print Assumptions C107_exists.
Theorem C107_unique : forall n c shift samples f x y, 0 < shift ->
  natural n c shift samples f x -> natural n c shift samples f y -> forall i, (i < n)%nat -> x i = y i.
Proof. exact natural_unique. Qed.
Print Assumptions C107_unique.
(** It is a direction of descent: its product with the gradient is at least shift times its
    own square *)
Theorem C107_descent : forall n c shift samples f x, natural n c shift samples f x ->
  shift * fsum rR n (fun i => cnorm2 (x i)) <= fsum rR n (fun i => fst (x i) * fst (f i) + snd (x i) * snd (f i)).
Proof. exact natural_descent. Qed.
Print Assumptions C107_descent.
(** Without a machine, or if the iteration fails, there is no update on any rank *)
Theorem C107_uninitialised : forall n shift ranks dense krylov it si k x0 f,
  compute_update n shift ranks dense krylov None it si k x0 f = map (fun _ => Err ValueError) ranks.
Proof. exact uninitialised. Qed.
Print Assumptions C107_uninitialised.
Theorem C107_not_converged : forall n shift ranks dense krylov c si k x0 f,
  (forall A b x, (snd (krylov k A b x) < 0)%Z) ->
  compute_update n shift ranks dense krylov (Some c) true si k x0 f = map (fun _ => Err RuntimeError) ranks.
Proof. exact not_converged. Qed.
Print Assumptions C107_not_converged.

(** The solver an option stands for *)
Theorem C107_options_default : forall c,
  init_solver None true c None = Ok (true, if c then Gmres else Minres) /\
  (forall svd, init_solver None false c svd = Ok (false, Gelsy)).
Proof. exact options_default. Qed.
Print Assumptions C107_options_default.
Theorem C107_options_named : forall it c,
  init_solver (Some "gmres"%string) it c None = Ok (true, Gmres) /\
  init_solver (Some "cg"%string) it c None = Ok (true, Cg) /\
  init_solver (Some "minres"%string) it c None = (if c then Err RuntimeError else Ok (true, Minres)) /\
  forall svd,
    init_solver (Some "ColPivHouseholder"%string) it c svd = Ok (false, Gelsy) /\
    init_solver (Some "QR"%string) it c svd = Ok (false, Gelsy) /\
    init_solver (Some "SVD"%string) it c svd = Ok (false, Lstsq) /\
    init_solver (Some "Cholesky"%string) it c svd = Ok (false, Cho).
Proof. exact options_named. Qed.
Print Assumptions C107_options_named.
Theorem C107_options_sound : forall name it c svd b k, init_solver name it c svd = Ok (b, k) ->
  (b = true -> svd = None) /\ (k = Minres -> c = false) /\ (b = true <-> k = Gmres \/ k = Cg \/ k = Minres).
Proof. exact options_sound. Qed.
Print Assumptions C107_options_sound.
Theorem C107_options_unknown : forall name it c svd,
  name <> "gmres"%string -> name <> "cg"%string -> name <> "minres"%string ->
  contains "ColPivHouseholder" name = false -> contains "QR" name = false -> contains "SVD" name = false -> contains "Cholesky" name = false ->
  init_solver (Some name) it c svd = Err RuntimeError.
Proof. exact options_unknown. Qed.
Print Assumptions C107_options_unknown.

(** Dense solver with real parameters on two ranks: each uses its own samples only, and they
    end up with different parameters *)
Theorem C107_real_dense_ranks_refuted : exists shift ranks f, balanced 2 ranks /\ 0 < shift /\
  forall k dense krylov x0, (forall k, exact_dense 1 (dense k)) ->
    exists x y, compute_update 1 shift ranks dense krylov (Some false) false false k x0 f = [Ok x; Ok y] /\ x 0%nat <> y 0%nat /\
      ~ natural 1 false shift (concat ranks) f x /\ ~ natural 1 false shift (concat ranks) f y.
Proof. exact real_dense_refuted. Qed.
Print Assumptions C107_real_dense_ranks_refuted.
(** Cholesky with real parameters solves with the complex matrix, instead of its real part *)
Theorem C107_cholesky_refuted : exists shift ranks f, balanced 2 ranks /\ length ranks = 1%nat /\ 0 < shift /\
  forall dense krylov x0, (forall k, exact_dense 2 (dense k)) ->
    exists x, compute_update 2 shift ranks dense krylov (Some false) false false Cho x0 f = [Ok x] /\ ~ natural 2 false shift (concat ranks) f x.
Proof. exact cholesky_refuted. Qed.
Print Assumptions C107_cholesky_refuted.
(** Scale-invariant regularisation is not what it is said to be *)
Theorem C107_scaled_refuted : exists shift ranks f, balanced 2 ranks /\ length ranks = 1%nat /\ 0 < shift /\
  forall k dense krylov x0, (forall k, exact_dense 1 (dense k)) ->
    exists x, compute_update 1 shift ranks dense krylov (Some true) false true k x0 f = [Ok x] /\ ~ natural_scaled 1 shift (concat ranks) f x.
Proof. exact scaled_refuted. Qed.
Print Assumptions C107_scaled_refuted.

(** There are exact solvers, and two ranks with two different samples each *)
Example solvers_exact : exact_dense 1 solve1 /\ exact_krylov 1 krylov1.
Proof. split; [exact solve1_exact|exact krylov1_exact]. Qed.
Example two_ranks_balanced : balanced 2 two_ranks.
Proof. repeat split; [auto with arith|discriminate|repeat apply Forall_cons; try apply Forall_nil; reflexivity]. Qed.
Example two_ranks_natural : natural 1 true 1 (concat two_ranks) (cst 1) (cst (2 / 7)).
Proof. intros i Hi. destruct i as [|i]; [|inversion Hi; inversion H0]. cbn [fsum]. rewrite two_cov. unfold cst, rscal. cbn. f_equal; field. Qed.
