(** C101: the numpy Jastrow machine, and what all numpy machines share: products with the
    Jacobian, amplitude vectors, norms, files. *)
From Coq Require Import List Arith ZArith Bool Reals.
From Verif Require Import Base Rings ARNN_Model ToArray_Model Estim_Model Group_Spec Symm_Spec LegRbm_Model LegRbm_Spec LegJas_Model LegJas_Spec LegJas_Final.
Import ListNotations.
Open Scope R_scope.
Open Scope nat_scope.

(** Without automorphisms the pairs of sites have parameters of their own, in the order (0,1), (0,2), ..., after the visible bias. *)
Theorem C101_amplitude_plain : forall n vis d junk m p m' x out,
  construct n vis ANone d junk = Ok m -> jset m p = Ok m' -> Forall (holds d) p -> rows_ok n d x ->
  exists buf, jlog_val m' n x out = Ok (map (fun s => jastrow_log n (fun i j => par p (shift vis n + pair_rank n i j)) (bias_of vis p) (par s)) x, buf).
Proof. exact plain_value. Qed.
Print Assumptions C101_amplitude_plain.

(** With a group of automorphisms there is one parameter for every class of pairs of sites, and related pairs share it. *)
Theorem C101_amplitude_symmetric : forall n vis rows d junk m, construct n vis (ATable rows) d junk = Ok m -> permutation_group n rows ->
  exists k c, numbers_classes n rows k c /\ jn_par m = shift vis n + k /\
   forall p m' x out, jset m p = Ok m' -> Forall (holds d) p -> rows_ok n d x ->
   exists buf, jlog_val m' n x out = Ok (map (fun s => jastrow_log n (fun i j => par p (shift vis n + c i j)) (bias_of vis p) (par s)) x, buf).
Proof. exact symm_value. Qed.
Print Assumptions C101_amplitude_symmetric.

(** The documented sum over all i and j is not what is computed: every pair counts once. *)
Theorem C101_documented_sum_refuted : exists m m' p v, construct 2 false ANone PComplex nojunk = Ok m /\ jset m p = Ok m' /\ jlog_val m' 2 [[c1; c1]] false = Ok ([v], None) /\
  cexp v <> cexp (jastrow_doc 2 (fun i j => if i =? j then c0 else par p 0) (fun _ => c0) (par [c1; c1])).
Proof. exact doc_bad. Qed.
Print Assumptions C101_documented_sum_refuted.

(** The rows of der_log are the coefficients of the parameters in log_val, which is linear in them. *)
Theorem C101_gradient : forall n vis am d junk m p m' x out, construct n vis am d junk = Ok m -> jset m p = Ok m' -> Forall (holds d) p -> rows_ok n d x ->
  jder_log m' n x = jder_log m n x /\
  Forall (fun r => length r = jn_par m) (jder_log m n x) /\
  exists buf, jlog_val m' n x out = Ok (map (fun r => fsum cC (jn_par m) (fun k => rmul cC (par p k) (par r k))) (jder_log m n x), buf).
Proof. exact gradient. Qed.
Print Assumptions C101_gradient.

(** Without visible bias the amplitudes do not change when a configuration is permuted by an automorphism; with it they do. *)
Theorem C101_invariance_partial : forall n rows d junk m p m' x g, construct n false (ATable rows) d junk = Ok m -> permutation_group n rows -> jset m p = Ok m' ->
  Forall (holds d) p -> rows_ok n d x -> In g rows ->
  jlog_val m' n (map (permuted (0, 0)%R g) x) false = jlog_val m' n x false.
Proof. exact invariance. Qed.
Print Assumptions C101_invariance_partial.
Theorem C101_invariance_refuted : exists m m' p, construct 2 true (ATable [[0; 1]; [1; 0]]) PComplex nojunk = Ok m /\ jset m p = Ok m' /\
  permutation_group 2 [[0; 1]; [1; 0]] /\
  jlog_val m' 2 [permuted (0, 0)%R [1; 0] [c1; c0]] false <> jlog_val m' 2 [[c1; c0]] false.
Proof. exact bias_bad. Qed.
Print Assumptions C101_invariance_refuted.

(** The array given as [out] holds the result, but not when there is a visible bias. *)
Theorem C101_out_partial : forall n am d junk m p m' x, construct n false am d junk = Ok m -> jset m p = Ok m' -> Forall (holds d) p -> rows_ok n d x ->
  exists v, jlog_val m' n x true = Ok (v, Some v).
Proof. exact out_buffer. Qed.
Print Assumptions C101_out_partial.
Theorem C101_out_refuted : exists m m' p v b, construct 2 true ANone PComplex nojunk = Ok m /\ jset m p = Ok m' /\ jlog_val m' 2 [[c1; c0]] true = Ok (v, Some b) /\ v <> b.
Proof. exact out_bad. Qed.
Print Assumptions C101_out_refuted.

(** A new machine is the constant function, unless it has a visible bias, which is uninitialised memory. *)
Theorem C101_fresh_partial : forall n am d junk m x, construct n false am d junk = Ok m -> rows_ok n d x -> jlog_val m n x false = Ok (map (fun _ => (0, 0)%R) x, None).
Proof. exact fresh. Qed.
Print Assumptions C101_fresh_partial.
Theorem C101_fresh_refuted : exists junk junk' m m', construct 2 true ANone PComplex junk = Ok m /\ construct 2 true ANone PComplex junk' = Ok m' /\
  jlog_val m 2 [[c1; c0]] false <> jlog_val m' 2 [[c1; c0]] false.
Proof. exact fresh_bad. Qed.
Print Assumptions C101_fresh_refuted.

(** Parameters: what is set is what is read; another number of parameters is refused. *)
Theorem C101_parameters : forall n vis am d junk m p, construct n vis am d junk = Ok m -> Forall (holds d) p ->
  (length p = jn_par m -> exists m', jset m p = Ok m' /\ jget m' = p /\ jn_par m' = jn_par m) /\
  (length p <> jn_par m -> jset m p = Err ValueError) /\ length (jget m) = jn_par m.
Proof. exact params. Qed.
Print Assumptions C101_parameters.
Theorem C101_parameter_count : forall n vis d junk m, construct n vis ANone d junk = Ok m -> 2 * jn_par m = n * (n - 1) + 2 * shift vis n.
Proof. exact plain_count. Qed.
Print Assumptions C101_parameter_count.

(** Which arguments the constructor takes. *)
Theorem C101_constructor : forall n vis am d junk,
  (d = POther -> construct n vis am d junk = Err TypeError) /\
  (d <> POther -> n < 2 -> construct n vis am d junk = Err ValueError) /\
  (d <> POther -> 2 <= n -> am = ANone -> exists m, construct n vis am d junk = Ok m) /\
  (d <> POther -> 2 <= n -> forall rows, am = ATable rows -> Forall (fun r => length r = n /\ Forall (fun k => k < n) r) rows -> rows <> [] ->
     exists m, construct n vis am d junk = Ok m) /\
  (d <> POther -> 2 <= n -> forall rows, am = ATable rows -> rows = [] \/ Exists (fun r => length r <> n) rows -> construct n vis am d junk = Err RuntimeError).
Proof. exact constructor. Qed.
Print Assumptions C101_constructor.

(** Configurations with too many sites make the kernel read outside its arrays; configurations with too few are taken without complaint. *)
Theorem C101_too_many_sites : forall m w x out, j_n m < w -> x <> [] -> jlog_val m w x out = Err Fault.
Proof. exact too_long. Qed.
Print Assumptions C101_too_many_sites.
Theorem C101_too_few_sites_refuted : exists m m' p v, construct 3 false ANone PComplex nojunk = Ok m /\ jset m p = Ok m' /\ jlog_val m' 2 [[c1; c1]] false = Ok (v, None).
Proof. exact width_bad. Qed.
Print Assumptions C101_too_few_sites_refuted.

(** vector_jacobian_prod: for every direction [q] in the space of parameters the inner product of the result with [q] is the
    inner product of the vector with the change of the values; without [conjugate] the result is the complex conjugate. *)
Theorem C101_jacobian_product : forall n vis am d junk m q mq x vec l, construct n vis am d junk = Ok m -> jset m q = Ok mq -> Forall (holds d) q -> rows_ok n d x ->
  vjp (jn_par m) (jder_log m n x) vec true = Ok l ->
  length l = jn_par m /\
  vjp (jn_par m) (jder_log m n x) vec false = Ok (map (rconj cC) l) /\
  exists v, jlog_val mq n x false = Ok (v, None) /\
  fsum cC (jn_par m) (fun k => rmul cC (par q k) (rconj cC (par l k))) = fsum cC (length x) (fun b => rmul cC (rconj cC (par vec b)) (par v b)).
Proof. exact vjp_main. Qed.
Print Assumptions C101_jacobian_product.
Theorem C101_jacobian_product_shapes : forall npar jac vec c, length jac <> length vec -> vjp npar jac vec c = Err ValueError.
Proof. exact vjp_wrong. Qed.
Print Assumptions C101_jacobian_product_shapes.
(** Three axes: right for one chain, an error for more. *)
Theorem C101_jacobian_product_chains_partial : forall npar jac vec c, jac <> [] -> vjp3 npar (map (fun r => [r]) jac) vec c = vjp npar jac vec c.
Proof. exact vjp3_one. Qed.
Print Assumptions C101_jacobian_product_chains_partial.
Theorem C101_jacobian_product_chains_refuted : forall npar jac vec c b2, 2 <= b2 -> Forall (fun sl => length sl = b2) jac -> length vec = length jac * b2 ->
  vjp3 npar jac vec c = Err ValueError.
Proof. exact vjp3_bad. Qed.
Print Assumptions C101_jacobian_product_chains_refuted.

(** to_array: the amplitudes divided by their norm; without normalisation, a positive multiple whose largest entry has modulus 1. *)
Theorem C101_to_array : forall logs, logs <> [] -> machine_array true logs true =
  Ok (map (fun z => (fst z / sqrt (norm2 (amps logs)), snd z / sqrt (norm2 (amps logs))))%R (amps logs)).
Proof. exact array_norm. Qed.
Print Assumptions C101_to_array.
Theorem C101_to_array_plain : forall logs, logs <> [] -> exists c l, (0 < c)%R /\ machine_array true logs false = Ok l /\
  l = map (fun z => (c * fst z, c * snd z))%R (amps logs) /\ Forall (fun z => modulus z <= 1)%R l /\ Exists (fun z => modulus z = 1%R) l.
Proof. exact array_plain. Qed.
Print Assumptions C101_to_array_plain.
(** log_norm: the logarithm of the sum of the moduli to the power [order]. *)
Theorem C101_log_norm : forall logs order, logs <> [] -> log_norm true logs order = Ok (ln (rsum (map (fun z => Rpower (modulus z) order) (amps logs)))).
Proof. exact log_norm_main. Qed.
Print Assumptions C101_log_norm.
Theorem C101_not_indexable : forall logs b order, machine_array false logs b = Err RuntimeError /\ log_norm false logs order = Err RuntimeError.
Proof. exact not_indexable. Qed.
Print Assumptions C101_not_indexable.

(** A machine built with the same arguments gets the saved machine back from the file. *)
Theorem C101_save_load : forall (bytes : Type) (encode : list cpx -> bytes) (decode : bytes -> option (list cpx)) (empty : bytes)
  n vis am d junk junk' m0 m1 p m old,
  (forall q, decode (encode q) = Some q) -> construct n vis am d junk = Ok m0 -> construct n vis am d junk' = Ok m1 ->
  Forall (holds d) p -> jset m0 p = Ok m ->
  snd (save bytes encode empty true old m) = None /\ load bytes decode m1 (last (fst (save bytes encode empty true old m)) old) = Ok m.
Proof. exact save_load. Qed.
Print Assumptions C101_save_load.
Theorem C101_load_other : forall (bytes : Type) (decode : bytes -> option (list cpx)) n vis am d junk m f q,
  construct n vis am d junk = Ok m -> decode f = Some q -> length q <> jn_par m -> load bytes decode m f = Err ValueError.
Proof. exact load_other. Qed.
Print Assumptions C101_load_other.
(** A program stopped while it saves leaves a file that cannot be loaded; the old one is gone. *)
Theorem C101_save_stopped_refuted : forall (bytes : Type) (encode : list cpx -> bytes) (decode : bytes -> option (list cpx)) (empty : bytes) old m m1,
  decode empty = None -> exists f, In f (fst (save bytes encode empty true old m)) /\ load bytes decode m1 f = Err ValueError.
Proof. exact crash_bad. Qed.
Print Assumptions C101_save_stopped_refuted.

(** Examples: the rotations of three sites leave one class of pairs, the swap of two sites is a group, real machines hold real numbers. *)
Example C101_ex_rotations : exists m, construct 3 false (ATable [[0; 1; 2]; [1; 2; 0]; [2; 0; 1]]) PFloat nojunk = Ok m /\ jn_par m = 1 /\
  exists m', construct 4 false (ATable [[0; 1; 2; 3]; [1; 2; 3; 0]; [2; 3; 0; 1]; [3; 0; 1; 2]]) PFloat nojunk = Ok m' /\ jn_par m' = 2.
Proof. eexists. split; [reflexivity|]. split; [reflexivity|]. eexists. split; reflexivity. Qed.
Example C101_ex_group : permutation_group 2 [[0; 1]; [1; 0]].
Proof. exact swap_group. Qed.
Example C101_ex_rank : map (fun p => pair_rank 4 (fst p) (snd p)) (pairs 4) = [0; 1; 2; 3; 4; 5] /\ jn_par (match construct 4 true ANone PComplex nojunk with Ok m => m | Err _ => JMach 0 POther blank 0 None [] end) = 10.
Proof. split; reflexivity. Qed.
Example C101_ex_set : exists m m', construct 3 true ANone PComplex nojunk = Ok m /\ jset m [c1; c0; c1; c0; c1; c1] = Ok m' /\ rows_ok 3 PComplex [[c1; c1; c0]] /\
  exists l, vjp (jn_par m) (jder_log m 3 [[c1; c1; c0]]) [c1] true = Ok l.
Proof.
  eexists. eexists. split; [reflexivity|]. split; [reflexivity|]. split; [constructor; [split; [reflexivity|apply h_all]|constructor]|]. eexists. reflexivity.
Qed.
Example C101_ex_codec : exists (decode : option (list cpx) -> option (list cpx)), (forall q, decode (Some q) = Some q) /\ decode None = None.
Proof. exists (fun x => x). split; reflexivity. Qed.
