(** * Gradients and tree utilities (netket/jax/_grad.py, _vjp.py, utils.py)

    A tree of arrays is the list of its leaves; each leaf is a flat list of numbers with a
    flag for a complex type.  What jax itself computes is given by derivatives: for an output
    u + i v and an input x + i y, jax.vjp maps the cotangent c + i d to
    (c u_x - d v_x) - i (c u_y - d v_y), of which a real input gets the real part. *)
From Coq Require Import List Arith Reals Bool.
From Verif Require Import Base Rings ARNN_Model ToArray_Model Estim_Model.
Import ListNotations.
Open Scope R_scope.

Record leaf := Leaf { l_complex : bool; l_vals : list cpx }.
Definition tree := list leaf.
Definition re (z : cpx) : cpx := (fst z, 0).
Definition im (z : cpx) : cpx := (snd z, 0).
(** conversion to a real or complex type *)
Definition to_type (is_complex : bool) (z : cpx) : cpx := if is_complex then z else re z.

(** utils.py 90-94: tree_leaf_iscomplex *)
Definition any_complex (t : tree) : bool := existsb l_complex t.
(** 68-73: tree_size *)
Definition tree_size (t : tree) : nat := list_sum (map (fun l => length (l_vals l)) t).

(** 53-54: _ravel_list; the array has the common type of the leaves *)
Definition ravel (t : tree) : leaf := Leaf (any_complex t) (concat (map l_vals t)).
(** transpose of the concatenation: pieces with the lengths of the leaves *)
Fixpoint split_like (t : tree) (v : list cpx) : list (list cpx) :=
  match t with [] => [] | l :: t => firstn (length (l_vals l)) v :: split_like t (skipn (length (l_vals l)) v) end.
(** 35-51: the second result of tree_ravel: nkjax.vjp of _ravel_list (_vjp.py 43-51, 67-81,
    152-163).  Transposing the conversion of a real leaf to the complex common type takes the
    real part. *)
Definition unravel (t : tree) (v : leaf) : tree :=
  if any_complex t then
    map (fun p => Leaf (l_complex (fst p)) (map (to_type (l_complex (fst p))) (snd p)))
      (combine t (split_like t (map (to_type true) (l_vals v))))
  else if l_complex v then
    map (fun p => Leaf true p)
      (map (fun p => map (fun ab => radd cC (fst ab) (rmul cC (0, 1) (snd ab))) (combine (fst p) (snd p)))
        (combine (split_like t (map re (l_vals v))) (split_like t (map im (l_vals v)))))
  else map (fun p => Leaf false p) (split_like t (map (to_type false) (l_vals v))).

(** 234-266: tree_to_real; a complex leaf becomes the pair of its parts, and back.  The
    transposes of taking the real and the imaginary part are a and -i b (jax), and the result
    is conjugated. *)
Inductive real_leaf := RReal (vals : list R) | RPair (re im : list R).
Definition to_real (l : leaf) : real_leaf :=
  if l_complex l then RPair (map fst (l_vals l)) (map snd (l_vals l)) else RReal (map fst (l_vals l)).
Definition reassemble (l : real_leaf) : leaf :=
  match l with
  | RReal a => Leaf false (map (fun x => (x, 0)) a)
  | RPair a b => Leaf true (map (fun p => rconj cC (radd cC (fst p, 0) (ropp cC (0, snd p)))) (combine a b))
  end.

(** 172-178: tree_conj; 181-194: tree_dot (functools.reduce without initial value);
    197-217: tree_cast; 220-231: tree_axpy *)
Definition conj_leaf (l : leaf) : leaf := if l_complex l then Leaf true (map (rconj cC) (l_vals l)) else l.
Definition leaf_dot (a b : leaf) : cpx := lsum cC (map (fun p => rmul cC (fst p) (snd p)) (combine (l_vals a) (l_vals b))).
Definition tree_dot (a b : tree) : res cpx :=
  match map (fun p => leaf_dot (fst p) (snd p)) (combine a b) with
  | [] => Err TypeError
  | x :: l => Ok (fold_left (radd cC) l x)
  end.
Definition cast_leaf (x target : leaf) : leaf := Leaf (l_complex target) (map (to_type (l_complex target)) (l_vals x)).
Definition tree_cast (x target : tree) : tree := map (fun p => cast_leaf (fst p) (snd p)) (combine x target).
Definition axpy_leaf (ac : bool) (a : cpx) (x y : leaf) : leaf :=
  Leaf (ac || l_complex x || l_complex y)
    (map (fun p => radd cC (rmul cC a (fst p)) (snd p)) (combine (l_vals x) (l_vals y))).
Definition tree_axpy (ac : bool) (a : cpx) (x y : tree) : tree :=
  map (fun p => axpy_leaf ac a (fst p) (snd p)) (combine x y).

(** Element types; 84-156: is_complex_dtype, dtype_real, dtype_complex, maybe_promote_to_complex *)
Inductive dtype := F16 | F32 | F64 | C64 | C128 | I32 | I64 | Bool8.
Definition is_complex_dtype (t : dtype) : bool := match t with C64 | C128 => true | _ => false end.
Definition dtype_real (t : dtype) : res dtype := match t with C64 => Ok F32 | C128 => Ok F64 | t => Ok t end.
Definition dtype_complex (t : dtype) : res dtype :=
  match t with C64 | C128 => Ok t | F32 => Ok C64 | F64 => Ok C128 | _ => Err TypeError end.
Definition maybe_promote (main : dtype) (others : list dtype) : res dtype :=
  if existsb is_complex_dtype (main :: others) then dtype_complex main else Ok main.

(** ** vector-Jacobian products (_vjp.py 35-163), for [m] output numbers and one input
    number; derivatives of output [i] with respect to the real and imaginary part of the
    input. *)
Record jac := Jac { ux : nat -> R; uy : nat -> R; vx : nat -> R; vy : nat -> R }.
Definition jsum (m : nat) (f : nat -> cpx) : cpx := fsum cC m f.
Definition maybe_conj (c : bool) (z : cpx) : cpx := if c then rconj cC z else z.
(** 35-56; [out_complex]: type of the output, to which the cotangent is converted *)
Definition nk_vjp_cc (m : nat) (out_complex in_complex conjugate : bool) (j : jac) (y : nat -> cpx) : cpx :=
  let y' i := to_type out_complex (y i) in
  let d := to_type in_complex (jsum m (fun i => jax_vjp (y' i) (ux j i) (uy j i) (vx j i) (vy j i))) in
  maybe_conj conjugate d.
(** 59-86 *)
Definition nk_vjp_rr (m : nat) (y_complex conjugate : bool) (j : jac) (y : nat -> cpx) : cpx :=
  let pull f := fsum rR m (fun i => f i * ux j i) in
  if negb y_complex then (pull (fun i => fst (y i)), 0)
  else let out_r := pull (fun i => fst (y i)) in
       let out_i := pull (fun i => snd (y i)) in
       if conjugate then rsub cC (out_r, 0) (rmul cC (0, 1) (out_i, 0))
       else radd cC (out_r, 0) (rmul cC (0, 1) (out_i, 0)).
(** 92-143 *)
Definition nk_vjp_rc (m : nat) (conjugate : bool) (j : jac) (y : nat -> cpx) : cpx :=
  let pull_r f := fsum rR m (fun i => f i * ux j i) in
  let pull_j f := fsum rR m (fun i => f i * vx j i) in
  let yr i := fst (y i) in
  let yj i := snd (y i) in
  let r := radd cC (pull_r yr, 0) (rmul cC (0, 1) (pull_r yj, 0)) in
  let i := radd cC (pull_j yr, 0) (rmul cC (0, 1) (pull_j yj, 0)) in
  maybe_conj conjugate (radd cC r (rmul cC (0, 1) i)).
(** 152-163: dispatch on whether any input is complex and on the output *)
Definition nk_vjp (m : nat) (any_complex_in this_complex out_complex y_complex conjugate : bool) (j : jac) (y : nat -> cpx) : cpx :=
  if any_complex_in then nk_vjp_cc m out_complex this_complex conjugate j y
  else if out_complex then nk_vjp_rc m conjugate j y
  else nk_vjp_rr m y_complex conjugate j y.

(** ** value_and_grad (_grad.py 85-204) for one argument; [ad] is jax.grad of a real function
    of a real number, [hol] that of a holomorphic function. *)
Section Grad.
  Variable aux : Type.
  Variable ad : (R -> R) -> R -> R.
  Variable hol : (cpx -> cpx) -> cpx -> cpx.
  Inductive fn :=
  | FRR (f : R -> R) | FRC (f : R -> cpx) | FCC (f : cpx -> cpx) | FCR (f : cpx -> R).
  (** the argument: converted according to the kind of function; [g] is the auxiliary output *)
  Definition value_and_grad (has_aux : bool) (f : fn) (x : cpx) (a : aux) : res (cpx * option aux * cpx) :=
    let out := if has_aux then Some a else None in
    match f with
    | FCC f => Ok (f x, out, hol f x)
    | FCR _ => Err RuntimeError
    | FRC f =>
        if has_aux then Err ValueError   (* jax returns a pair, three names are assigned *)
        else Ok (radd cC (fst (f (fst x)), 0) (rmul cC (0, 1) (snd (f (fst x)), 0)), None,
                 radd cC (ad (fun r => fst (f r)) (fst x), 0) (rmul cC (0, 1) (ad (fun r => snd (f r)) (fst x), 0)))
    | FRR f => Ok ((f (fst x), 0), out, (ad f (fst x), 0))
    end.
  (** 35-82 *)
  Definition grad (has_aux : bool) (f : fn) (x : cpx) (a : aux) : res (cpx * option aux) :=
    let? r := value_and_grad has_aux f x a in
    let '(_, o, g) := r in Ok (g, o).
End Grad.
