(** * C70: options of the natural-gradient preconditioner *)
From Coq Require Import String List Arith ZArith QArith Bool.
From Verif Require Import Base SROpts_Model SROpts_Spec SROpts_Proofs.
Import ListNotations.
Open Scope string_scope.
Open Scope list_scope.
Open Scope nat_scope.

(** keywords: exactly the given options, documented defaults otherwise *)
Theorem C70_keywords : forall qgt solver shift extra restart, for_tensor extra -> qgt <> Some VNone -> solver <> Some VNone ->
  exists o, build_SR [] restart (given "qgt" qgt ++ given "solver" solver ++ given "diag_shift" shift ++ extra) = Ok o /\
    configured qgt solver shift extra restart o.
Proof. exact build_keywords. Qed.
Print Assumptions C70_keywords.

(** tensor and solver may be given by position *)
Theorem C70_positional1 : forall qgt solver shift extra restart,
  for_tensor extra -> qgt <> VNone -> is_num qgt = false -> solver <> Some VNone ->
  build_SR [qgt] restart (given "solver" solver ++ given "diag_shift" shift ++ extra)
  = build_SR [] restart (given "qgt" (Some qgt) ++ given "solver" solver ++ given "diag_shift" shift ++ extra).
Proof. exact build_positional1. Qed.
Print Assumptions C70_positional1.
Theorem C70_positional2 : forall qgt solver shift extra restart,
  for_tensor extra -> qgt <> VNone -> is_num qgt = false -> solver <> VNone -> is_str solver = false ->
  build_SR [qgt; solver] restart (given "diag_shift" shift ++ extra)
  = build_SR [qgt] restart (given "solver" (Some solver) ++ given "diag_shift" shift ++ extra).
Proof. exact build_positional2. Qed.
Print Assumptions C70_positional2.

(** Such an object can be used: without a tensor the automatic choice is made by the solver
    and the size of the state, with one the given class is built. *)
Theorem C70_usable : forall solver shift o v, (forall t, solver = Some t -> exists t', t = VSolver t') ->
  configured None solver shift [] (sr_restart o) o ->
  exists t, sr_solver o = VSolver t /\ sr_construct o v = Ok (default_qgt t v).
Proof. exact usable. Qed.
Print Assumptions C70_usable.
Theorem C70_usable_given : forall q solver shift extra o v, (q = OnTheFly \/ q = JacDense \/ q = JacPyTree) ->
  configured (Some (VQgt q)) solver shift extra (sr_restart o) o ->
  incl (map fst extra) (accepted q) -> ~ In "mode" (map fst extra) ->
  sr_construct o v = Ok q.
Proof. exact usable_given. Qed.
Print Assumptions C70_usable_given.

(** the automatic choice *)
Theorem C70_auto_choice : forall s v, flat_solver s -> chosen s v (default_qgt s v).
Proof. exact chosen_main. Qed.
Print Assumptions C70_auto_choice.
(** the options each tensor takes *)
Theorem C70_tensor_options : forall q kw,
  (construct q kw = Err TypeError <-> exists p, In p kw /\ ~ options_of q (fst p)) /\
  (construct q kw = Err ValueError <-> (forall p, In p kw -> options_of q (fst p)) /\ is_set "mode" kw /\ is_set "holomorphic" kw) /\
  (construct q kw = Ok tt <-> (forall p, In p kw -> options_of q (fst p)) /\ ~ (is_set "mode" kw /\ is_set "holomorphic" kw)).
Proof. exact tensor_options. Qed.
Print Assumptions C70_tensor_options.

(** The old calling convention: shift and method. *)
Theorem C70_method : forall d m r,
  build_SR [VNum d; VStr m] r [] =
    if (m =? "cg")%string then Ok (SRObj (VQgt (Auto Cg)) [("diag_shift", VNum d)] (VSolver Cg) r)
    else if (m =? "gmres")%string then Ok (SRObj (VQgt (Auto Gmres)) [("diag_shift", VNum d)] (VSolver Gmres) r)
    else Err ValueError.
Proof. exact legacy_method. Qed.
Print Assumptions C70_method.

(** Options of the solver are handed to the solver, all of them and nothing else. *)
Theorem C70_solver_options : forall k0 args r kw o,
  has "matrix" kw = false -> is_legacy k0 -> has k0 kw = true ->
  build_SR args r kw = Ok o ->
  exists s opts, sr_solver o = VSolver (PartialSolver s opts) /\ (s = Cg \/ s = Gmres) /\
    (forall k q, In (k, q) opts -> is_legacy k /\ has k kw = true) /\
    (forall k q, is_legacy k -> get k kw = Some (VNum q) -> In (k, q) opts).
Proof. exact solver_options_main. Qed.
Print Assumptions C70_solver_options.

(** But the object cannot be used; every object made with one of them fails when used
    on any state, because the option is passed on to the tensor as well. *)
Theorem C70_solver_options_refuted : forall k args restart kw o v,
  is_legacy k -> has k kw = true -> build_SR args restart kw = Ok o -> builtin (sr_qgt o) ->
  sr_construct o v = Err TypeError.
Proof. exact legacy_main. Qed.
Print Assumptions C70_solver_options_refuted.
(** the same for every keyword no tensor knows, among them the documented "jacobian" *)
Theorem C70_unknown_option : forall k args restart kw o v,
  k <> "qgt" -> k <> "solver" -> k <> "solver_restart" -> k <> "iterative" -> k <> "method" ->
  ~ In k ["mode"; "holomorphic"; "rescale_shift"; "diag_shift"; "_in_solve"] ->
  has k kw = true -> build_SR args restart kw = Ok o -> builtin (sr_qgt o) -> sr_construct o v = Err TypeError.
Proof. exact unknown_main. Qed.
Print Assumptions C70_unknown_option.
(** the documented rescale_shift with the default tensor depends on the size of the state *)
Theorem C70_rescale_refuted : exists o v v',
  build_SR [] (VBool false) [("rescale_shift", VBool true)] = Ok o /\
  sr_construct o v = Err TypeError /\ sr_construct o v' = Ok JacDense.
Proof.
  exact (ex_intro _ (SRObj (VQgt (Auto Cg)) [("diag_shift", VNum (1 # 100)); ("rescale_shift", VBool true)] (VSolver Cg) (VBool false))
    (ex_intro _ (VState 3 100 true) (ex_intro _ (VState 7 1000 true) (conj eq_refl (conj eq_refl eq_refl))))).
Qed.
Print Assumptions C70_rescale_refuted.
(** a shift given by position replaces the given solver *)
Theorem C70_solver_replaced_refuted : forall d s restart,
  build_SR [VNum d] restart [("solver", VSolver s)] = Ok (SRObj (VQgt (Auto Cg)) [("diag_shift", VNum d)] (VSolver Cg) restart).
Proof. exact (fun d s restart => eq_refl). Qed.
Print Assumptions C70_solver_replaced_refuted.
(** the deprecated constructors work without, and only without, solver options *)
Theorem C70_lazy_refuted : forall s d,
  sr_lazy s d [] = Ok (SRObj (VQgt OnTheFly) [("diag_shift", d)] (VSolver (PartialSolver s [])) (VBool false)) /\
  forall n v, exists o, sr_lazy s d [("maxiter", VNum n)] = Ok o /\ sr_construct o v = Err TypeError.
Proof. exact lazy_main. Qed.
Print Assumptions C70_lazy_refuted.

(** The automatic choice is made once for a state: what the state was then decides. *)
Theorem C70_auto_cached : forall s c id v0 calls v, (forall q, c <> Some (id, q)) -> Forall (fun p => fst p = id) calls ->
  snd (auto_call s (auto_run s c ((id, v0) :: calls)) id v) = default_qgt s v0.
Proof. exact auto_cached. Qed.
Print Assumptions C70_auto_cached.

Example C70_ex : configured (Some (VQgt JacDense)) (Some (VSolver Cholesky)) (Some (VNum (1 # 10))) [("holomorphic", VBool true)] (VBool true)
    (SRObj (VQgt JacDense) [("diag_shift", VNum (1 # 10)); ("holomorphic", VBool true)] (VSolver Cholesky) (VBool true)) /\
  for_tensor [("holomorphic", VBool true)] /\ incl (map fst [("holomorphic", VBool true)]) (accepted JacDense).
Proof.
  split; [repeat split|]. split; [repeat constructor; cbn; intuition discriminate|]. intros k [<- | []]. cbn. tauto.
Qed.
Example C70_auto_ex : default_qgt Svd (VState 3 10 true) = JacDense /\ default_qgt Cg (VState 7 801 false) = JacPyTree /\
  default_qgt Cg (VState 6 5000 true) = OnTheFly.
Proof. repeat split. Qed.
Example C70_legacy_ex : exists o, build_SR [VNum (1 # 2)] (VBool false) [("maxiter", VNum 5)] = Ok o /\ builtin (sr_qgt o).
Proof. eexists. split; [reflexivity|]. intros i H. discriminate H. Qed.
