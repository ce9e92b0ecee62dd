(** * Property theorems: linear layers *)
From Coq Require Import ZArith List Bool.
From Verif Require Import Base Dense_Model Dense_Spec Dense_Proofs Dense_Layer Dense_Cases.
Import ListNotations.
Open Scope nat_scope.

(** Dense: y[e, j] = sum_i x[e, i] k[i, j] + bias[j]. *)
Theorem C112_dense : forall (A : Type) (zero : A) (add mul : A -> A -> A)
  (add_assoc : forall a b c, add a (add b c) = add (add a b) c) (add_0_l : forall a, add zero a = a) (add_0_r : forall a, add a zero = a)
  (x kernel : tensor A) (bias : option (tensor A)) E n features,
  shape x = E ++ [n] -> shape kernel = [n; features] -> (forall t, bias = Some t -> shape t = [features]) ->
  exists y, dense zero add mul features kernel bias x = Ok y /\ shape y = E ++ [features] /\
    forall e j, index_of E e -> j < features ->
      at_ y (e ++ [j]) =
      let s := nested_sum zero add [n] (fun i => mul (at_ x (e ++ i)) (at_ kernel (i ++ [j]))) in
      match bias with None => s | Some t => add s (at_ t [j]) end.
Proof. exact @dense_thm. Qed.
Print Assumptions C112_dense.

(** DenseGeneral on the last axes (of sizes C), with leading batch dimensions (of sizes B):
    y[b, e, f] = sum_c x[b, e, c] k[b, c, f] + bias[b, f].  The documentation allows any
    axes; for others this is false with a bias, see [C112_axis_refuted]. *)
Theorem C112_general_partial : forall (A : Type) (zero : A) (add mul : A -> A -> A)
  (add_assoc : forall a b c, add a (add b c) = add (add a b) c) (add_0_l : forall a, add zero a = a) (add_0_r : forall a, add a zero = a)
  (x kernel : tensor A) (bias : option (tensor A)) axis B E C F,
  shape x = B ++ E ++ C -> shape kernel = B ++ C ++ F -> (forall t, bias = Some t -> shape t = B ++ F) ->
  normalize_axes axis (length (shape x)) = map Z.of_nat (seq (length B + length E) (length C)) ->
  exists y, dense_general zero add mul F axis (map Z.of_nat (seq 0 (length B))) kernel bias x = Ok y /\ shape y = B ++ E ++ F /\
    forall b e f, index_of B b -> index_of E e -> index_of F f ->
      at_ y (b ++ e ++ f) =
      let s := nested_sum zero add C (fun c => mul (at_ x (b ++ e ++ c)) (at_ kernel (b ++ c ++ f))) in
      match bias with None => s | Some t => add s (at_ t (b ++ f)) end.
Proof. exact @trailing_thm. Qed.
Print Assumptions C112_general_partial.

(** The hypothesis on the axes holds for -n, ..., -1. *)
Theorem C112_last_axes : forall nd n, n <= nd ->
  normalize_axes (map (fun i => Z.of_nat i - Z.of_nat n)%Z (seq 0 n)) nd = map Z.of_nat (seq (nd - n) n).
Proof. exact normalize_last. Qed.
Print Assumptions C112_last_axes.

Example C112_ex_general :
  let x := mkT [2; 3; 2; 2] (fun i => match i with [a; b; c; d] => Z.of_nat (a + 2 * b + c * d) | _ => 0%Z end) in
  let k := mkT [2; 2; 2; 3] (fun i => match i with [a; c; d; f] => Z.of_nat (a + c + d + f) | _ => 0%Z end) in
  let t := mkT [2; 3] (fun i => match i with [a; f] => Z.of_nat (10 * a + f) | _ => 0%Z end) in
  (let? y := dense_general 0%Z Z.add Z.mul [3] [-2; -1]%Z [0%Z] k (Some t) x in Ok (shape y, at_ y [1; 2; 0])) = Ok ([2; 3; 3], 53%Z).
Proof. exact example_dense_general. Qed.

(** First axis, no bias: as documented. *)
Theorem C112_first_axis : forall (A : Type) (zero : A) (add mul : A -> A -> A)
  (x kernel : tensor A) n0 n1 m, shape x = [n0; n1] -> shape kernel = [n0; m] ->
  exists y, dense_general zero add mul [m] [0%Z] [] kernel None x = Ok y /\ shape y = [n1; m] /\
    forall j f, at_ y [j; f] = nested_sum zero add [n0] (fun i => mul (at_ x (i ++ [j])) (at_ kernel (i ++ [f]))).
Proof. exact @first_axis_nobias_thm. Qed.
Print Assumptions C112_first_axis.

(** First axis with a bias: component [j] of the bias is added where component [f] should
    be, ... *)
Theorem C112_axis_refuted : forall (A : Type) (zero : A) (add mul : A -> A -> A)
  (x kernel bias : tensor A) n0 m, shape x = [n0; m] -> shape kernel = [n0; m] -> shape bias = [m] ->
  exists y, dense_general zero add mul [m] [0%Z] [] kernel (Some bias) x = Ok y /\ shape y = [m; m] /\
    forall j f, j < m -> f < m ->
      at_ y [j; f] = add (nested_sum zero add [n0] (fun i => mul (at_ x (i ++ [j])) (at_ kernel (i ++ [f])))) (at_ bias [j]).
Proof. exact @first_axis_bias_thm. Qed.
Print Assumptions C112_axis_refuted.

(** ... or the call raises. *)
Theorem C112_axis_raises_refuted : forall (A : Type) (zero : A) (add mul : A -> A -> A)
  (x kernel bias : tensor A) n0 n1 m, shape x = [n0; n1] -> shape kernel = [n0; m] -> shape bias = [m] ->
  m <> n1 -> m <> 1 -> n1 <> 1 -> dense_general zero add mul [m] [0%Z] [] kernel (Some bias) x = Err TypeError.
Proof. exact @first_axis_raises_thm. Qed.
Print Assumptions C112_axis_raises_refuted.

Example C112_ex_axis :
  let x := mkT [1; 2] (fun _ => 0%Z) in
  let k := mkT [1; 2] (fun _ => 0%Z) in
  let t := mkT [2] (fun i => match i with [f] => Z.of_nat f | _ => 7%Z end) in
  (let? y := dense_general 0%Z Z.add Z.mul [2] [0%Z] [] k (Some t) x in Ok (at_ y [0; 1], at_ y [1; 0])) = Ok (0%Z, 1%Z).
Proof. exact example_axis. Qed.

(** Batch dimensions other than 0, ..., n are refused. *)
Theorem C112_batch_dims : forall (A : Type) (zero : A) (add mul : A -> A -> A)
  (x kernel : tensor A) (bias : option (tensor A)) features axis batch, batch <> [] ->
  ~ (forall d, In d batch <-> exists k, (0 <= k <= fold_right Z.max (nth 0 batch 0%Z) batch)%Z /\ d = k) ->
  dense_general zero add mul features axis batch kernel bias x = Err ValueError.
Proof. exact @batch_dims_thm. Qed.
Print Assumptions C112_batch_dims.

(** All members of the batch start from the same weights. *)
Theorem C112_init_refuted : forall (A : Type) (init : nat * nat -> list A) batch axes features d,
  let size := fold_right Nat.mul 1 in
  let block := size axes * size features in
  length (init (size axes, size features)) = block ->
  length (kernel_init init batch axes features) = size batch * block /\
  forall i i' j, i < size batch -> i' < size batch -> j < block ->
    nth (i * block + j) (kernel_init init batch axes features) d = nth (i' * block + j) (kernel_init init batch axes features) d.
Proof. exact @init_thm. Qed.
Print Assumptions C112_init_refuted.

(** Parameters of a complex layer: complex in Dense, real in DenseGeneral. *)
Theorem C112_dtype_refuted : (forall d, dense_param_dtype d = d) /\ exists d, dense_general_param_dtype d <> d.
Proof. exact (conj (fun d => eq_refl) (ex_intro (fun d => dense_general_param_dtype d <> d) Complex128 (fun H => match H in _ = x return match x with Complex128 => False | _ => True end with eq_refl => I end))). Qed.
Print Assumptions C112_dtype_refuted.
