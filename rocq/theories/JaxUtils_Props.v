(** C83: gradients, vector-Jacobian products and tree utilities *)
From Coq Require Import List Arith Reals Lra.
From Verif Require Import Base Rings ARNN_Model ToArray_Model Estim_Model Estim_Spec JaxUtils_Model JaxUtils_Spec JaxUtils_Proofs.
Import ListNotations.
Open Scope R_scope.

(** Real inputs: vjp is y^T J for every complex y, for real and complex functions ... *)
Theorem C83_vjp_real : forall m conjugate yc out_complex j y,
  (out_complex = false -> real_function m j) -> (yc = false -> forall i, (i < m)%nat -> snd (y i) = 0) ->
  nk_vjp m false false out_complex yc conjugate j y = pullback m conjugate j y.
Proof. exact vjp_real. Qed.
Print Assumptions C83_vjp_real.

(** ... and so it is for holomorphic functions of complex inputs. *)
Theorem C83_vjp_holomorphic : forall m conjugate yc j y, holomorphic m j ->
  nk_vjp m true true true yc conjugate j y = pullback m conjugate j y.
Proof. exact vjp_holomorphic. Qed.
Print Assumptions C83_vjp_holomorphic.

Example C83_ex_vjp : let j := Jac (fun i => INR i) (fun _ => - 2) (fun _ => 2) (fun i => INR i) in
  holomorphic 3 j /\ nk_vjp 3 true true true true true j (fun _ => (0, 1)) = (-6, -3).
Proof.
  split; [intros i _; split; reflexivity|]. rewrite vjp_holomorphic by (intros i _; split; reflexivity).
  unfold pullback, derivative. cbn. f_equal; ring.
Qed.

(** With real and complex inputs together, a real input gets only the real part of y^T J: its
    result depends on the types of the other inputs ... *)
Theorem C83_vjp_mixed : forall m conjugate yc j y,
  nk_vjp m true false true yc conjugate j y = (fst (pullback m false j y), 0).
Proof. exact vjp_mixed. Qed.
Print Assumptions C83_vjp_mixed.

Theorem C83_vjp_mixed_refuted : exists m j y,
  nk_vjp m false false true true false j y = pullback m false j y /\ nk_vjp m true false true true false j y <> pullback m false j y.
Proof. exact vjp_mixed_refuted. Qed.
Print Assumptions C83_vjp_mixed_refuted.

(** ... and for real functions of complex inputs the imaginary part of y is lost. *)
Theorem C83_vjp_complex_to_real_refuted : exists m j y, real_function m j /\
  nk_vjp m false false false true false j y = pullback m false j y /\ nk_vjp m true true false true false j y = r0 cC /\ pullback m false j y <> r0 cC.
Proof. exact vjp_cr_refuted. Qed.
Print Assumptions C83_vjp_complex_to_real_refuted.

(** value_and_grad returns value and derivative of real and complex functions of real
    numbers, hands holomorphic functions to jax, and rejects C -> R. *)
Theorem C83_grad_partial : forall aux ad hol (x : cpx) (a : aux),
  (forall f r l, derivable_pt_lim f r l -> ad f r = l) ->
  (forall f l, derivable_pt_lim f (fst x) l -> forall has_aux,
     value_and_grad aux ad hol has_aux (FRR f) x a = Ok ((f (fst x), 0), (if has_aux then Some a else None), (l, 0))) /\
  (forall f l, cderiv f (fst x) l -> value_and_grad aux ad hol false (FRC f) x a = Ok (f (fst x), None, l)) /\
  (forall f has_aux, value_and_grad aux ad hol has_aux (FCC f) x a = Ok (f x, (if has_aux then Some a else None), hol f x)) /\
  (forall f has_aux, value_and_grad aux ad hol has_aux (FCR f) x a = Err RuntimeError).
Proof. exact grad_main. Qed.
Print Assumptions C83_grad_partial.

(** grad is the gradient of value_and_grad, with the auxiliary output. *)
Theorem C83_grad_same : forall aux ad hol has_aux f x (a : aux),
  grad aux ad hol has_aux f x a = match value_and_grad aux ad hol has_aux f x a with Ok (_, o, g) => Ok (g, o) | Err e => Err e end.
Proof. exact grad_same. Qed.
Print Assumptions C83_grad_same.

(** Missing above: with has_aux, complex functions of real numbers always raise. *)
Theorem C83_aux_refuted : forall aux ad hol f x (a : aux),
  value_and_grad aux ad hol true (FRC f) x a = Err ValueError /\ grad aux ad hol true (FRC f) x a = Err ValueError.
Proof. exact grad_aux_refuted. Qed.
Print Assumptions C83_aux_refuted.

(** tree_ravel gives tree_size numbers, and its second result undoes it. *)
Theorem C83_ravel : forall t, length (l_vals (ravel t)) = tree_size t /\ (proper_tree t -> unravel t (ravel t) = t).
Proof. exact (fun t => Logic.conj (ravel_size t) (unravel_ravel t)). Qed.
Print Assumptions C83_ravel.

(** Every vector survives the way to the tree and back when the leaves are all real or all
    complex ... *)
Theorem C83_unravel_partial : forall t v c, t <> [] -> all_type c t -> length (l_vals v) = tree_size t -> proper_leaf v ->
  numbers (unravel t v) = l_vals v.
Proof. exact ravel_unravel_uniform. Qed.
Print Assumptions C83_unravel_partial.

(** ... but not otherwise. *)
Theorem C83_unravel_refuted : exists t v, proper_tree t /\ proper_leaf v /\ length (l_vals v) = tree_size t /\
  numbers (unravel t v) <> l_vals v.
Proof. exact mixed_refuted. Qed.
Print Assumptions C83_unravel_refuted.

Example C83_ex_ravel : let t := [Leaf false [(1, 0); (2, 0)]; Leaf true []; Leaf true [(3, 4)]] in
  proper_tree t /\ ravel t = Leaf true [(1, 0); (2, 0); (3, 4)] /\ unravel t (Leaf true [(5, 6); (7, 8); (9, 1)])
    = [Leaf false [(5, 0); (7, 0)]; Leaf true []; Leaf true [(9, 1)]].
Proof.
  split; [|split; reflexivity].
  apply Forall_cons; [intros _; repeat (apply Forall_cons; [reflexivity|]); constructor|].
  apply Forall_cons; [intros E; discriminate|]. apply Forall_cons; [intros E; discriminate|constructor].
Qed.

(** tree_to_real and its inverse. *)
Theorem C83_to_real : (forall l, proper_leaf l -> reassemble (to_real l) = l) /\
  (forall a b, length a = length b -> to_real (reassemble (RPair a b)) = RPair a b).
Proof. exact (Logic.conj to_real_main reassemble_main). Qed.
Print Assumptions C83_to_real.

(** tree_dot and tree_axpy are those of the flattened trees (tree_dot of empty trees raises),
    tree_cast gives the types of the target and changes nothing else. *)
Theorem C83_dot : forall a b, same_shape a b -> a <> [] ->
  tree_dot a b = Ok (lsum cC (map (fun p => rmul cC (fst p) (snd p)) (combine (numbers a) (numbers b)))).
Proof. exact dot_main. Qed.
Print Assumptions C83_dot.
Theorem C83_dot_empty_refuted : forall b, tree_dot [] b = Err TypeError.
Proof. exact dot_empty. Qed.
Print Assumptions C83_dot_empty_refuted.
Theorem C83_axpy : forall ac a x y, same_shape x y ->
  numbers (tree_axpy ac a x y) = map (fun p => radd cC (rmul cC a (fst p)) (snd p)) (combine (numbers x) (numbers y)).
Proof. exact axpy_main. Qed.
Print Assumptions C83_axpy.
(** a leaf of the result is complex if the scalar or one of the leaves is *)
Theorem C83_axpy_types : forall ac a x y, same_shape x y ->
  map l_complex (tree_axpy ac a x y) = map (fun p => ac || fst p || snd p)%bool (combine (map l_complex x) (map l_complex y)).
Proof. exact axpy_types. Qed.
Print Assumptions C83_axpy_types.
Theorem C83_cast : forall x target, same_shape x target -> proper_tree (tree_cast x target) /\
  map l_complex (tree_cast x target) = map l_complex target /\
  (proper_tree x -> map l_complex x = map l_complex target -> tree_cast x target = x).
Proof. exact cast_main. Qed.
Print Assumptions C83_cast.

Theorem C83_cast_values : forall x target, same_shape x target ->
  Forall2 (fun c l => map fst (l_vals c) = map fst (l_vals l) /\ (l_complex c = true -> l_vals c = l_vals l)) (tree_cast x target) x.
Proof. exact cast_vals. Qed.
Print Assumptions C83_cast_values.
(** tree_conj conjugates every number and keeps the types. *)
Theorem C83_conj : forall l, proper_leaf l -> l_complex (conj_leaf l) = l_complex l /\ l_vals (conj_leaf l) = map (rconj cC) (l_vals l).
Proof. exact conj_main. Qed.
Print Assumptions C83_conj.

(** dtype_complex and dtype_real are inverse to each other; half precision and integers have
    no complex type. *)
Theorem C83_dtype : forall t,
  (forall c, dtype_complex t = Ok c -> is_complex_dtype c = true /\ (is_complex_dtype t = false -> dtype_real c = Ok t)) /\
  (exists r, dtype_real t = Ok r /\ is_complex_dtype r = false /\ (is_complex_dtype t = true -> dtype_complex r = Ok t)) /\
  (dtype_complex t = Err TypeError <-> ~ In t [F32; F64; C64; C128]).
Proof. exact dtype_main. Qed.
Print Assumptions C83_dtype.

(** maybe_promote_to_complex is complex when any type is, and keeps the precision of the
    first. *)
Theorem C83_promote : forall main others t, maybe_promote main others = Ok t ->
  is_complex_dtype t = existsb is_complex_dtype (main :: others) /\ dtype_real t = dtype_real main.
Proof. exact promote_main. Qed.
Print Assumptions C83_promote.
