(** C82: hashable partial functions and cached compilation *)
From Coq Require Import List Arith ZArith Bool Permutation.
From Verif Require Import Base Partial_Model Partial_Spec Partial_Proofs.
Import ListNotations.
Open Scope Z_scope.

(** == is an equivalence ... *)
Theorem C82_equivalence :
  (forall a, proper a -> equal a a) /\
  (forall a b, proper a -> proper b -> equal a b -> equal b a) /\
  (forall a b c, proper a -> proper b -> proper c -> equal a b -> equal b c -> equal a c).
Proof. exact equal_equivalence. Qed.
Print Assumptions C82_equivalence.

(** ... and equal partials have the same hash, whatever the order of the keywords. *)
Theorem C82_hash : forall hv hcode htuple hitem hset a b, hash_rules hv hset -> proper a -> proper b -> equal a b ->
  hp_hash hv hcode htuple hitem hset a = hp_hash hv hcode htuple hitem hset b.
Proof. exact hash_main. Qed.
Print Assumptions C82_hash.

Example C82_ex : let a := HPartial (PyFun (Some 5%nat) []) [VInt 2] [(0%nat, VInt 1); (1%nat, VFloat 3)] in
  let b := HPartial (PyFun (Some 5%nat) []) [VFloat 2] [(1%nat, VInt 3); (0%nat, VInt 1)] in
  equal a b /\ proper a /\ proper b /\ ~ equal a (HPartial (PyFun (Some 5%nat) []) [VInt 2] []).
Proof.
  repeat split; try discriminate; cbn [p_kw map fst]; repeat constructor; cbn [In]; intuition discriminate.
Qed.

(** Equal partials compute the same if they captured the same values. *)
Theorem C82_same : forall result (run_code : option nat -> list value -> list value -> dict -> result) a b,
  respects run_code -> proper a -> proper b -> equal a b -> f_captured (p_func a) = f_captured (p_func b) ->
  same_function run_code a b.
Proof. exact same_main. Qed.
Print Assumptions C82_same.

(** Cached compilation is then invisible: in every sequence of calls, each result is that of
    the function given. *)
Theorem C82_jit_partial : forall result (run_code : option nat -> list value -> list value -> dict -> result) l,
  respects run_code -> (forall k args kw, In (k, args, kw) l -> proper k /\ captures_nothing k) ->
  jit_calls result run_code [] l = map (fun x => hp_call result run_code (fst (fst x)) (snd (fst x)) (snd x)) l.
Proof. exact jit_closed. Qed.
Print Assumptions C82_jit_partial.

(** The functions of variational states satisfy these conditions, and are equal exactly when
    their models are. *)
Theorem C82_states : forall m m',
  (equal (state_init_fun m) (state_init_fun m') <-> m = m') /\ (equal (state_apply_fun m) (state_apply_fun m') <-> m = m') /\
  (equal (state_diagonal_fun m) (state_diagonal_fun m') <-> m = m') /\
  ~ equal (state_init_fun m) (state_apply_fun m') /\
  Forall (fun f => proper f /\ captures_nothing f) [state_init_fun m; state_apply_fun m; state_diagonal_fun m].
Proof. exact library_main. Qed.
Print Assumptions C82_states.

(** Sampler.log_pdf captures the power of the sampler: samplers with different powers have
    equal log_pdf, with different values ... *)
Theorem C82_log_pdf_refuted : forall log_amp f args p p', p <> p' -> log_amp f args <> 0 ->
  equal (sampler_log_pdf p f) (sampler_log_pdf p' f) /\
  hp_call Z (run_log_pdf log_amp) (sampler_log_pdf p f) args [] = p * log_amp f args /\
  hp_call Z (run_log_pdf log_amp) (sampler_log_pdf p f) args [] <> hp_call Z (run_log_pdf log_amp) (sampler_log_pdf p' f) args [].
Proof. exact log_pdf_refuted. Qed.
Print Assumptions C82_log_pdf_refuted.

(** ... so that under jit the second sampler gets the probabilities of the first. *)
Theorem C82_stale_refuted : forall log_amp p p' f args,
  jit_calls Z (run_log_pdf log_amp) [] [(sampler_log_pdf p f, args, []); (sampler_log_pdf p' f, args, [])]
  = [p * log_amp f args; p * log_amp f args].
Proof. exact log_pdf_stale. Qed.
Print Assumptions C82_stale_refuted.

(** Arguments 2 and 2.0 make equal partials, which may compute different things. *)
Theorem C82_numbers_refuted : exists a b run_code, proper a /\ proper b /\ captures_nothing a /\ captures_nothing b /\
  equal a b /\ hp_call value run_code a [] [] <> hp_call value run_code b [] [].
Proof. exact numbers_refuted. Qed.
Print Assumptions C82_numbers_refuted.

(** Callables without a code object cannot be compared or hashed. *)
Theorem C82_no_code : forall a b, f_code (p_func a) = None -> hp_eq a b = Err AttributeError /\
  forall hv hcode htuple hitem hset, hp_hash hv hcode htuple hitem hset a = Err AttributeError.
Proof. exact no_code. Qed.
Print Assumptions C82_no_code.
