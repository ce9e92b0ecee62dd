(** * Restricted Boltzmann machines, Jastrow and neural density matrix
    netket/nn/activation.py 52-55, netket/models/rbm.py, models/jastrow.py, models/ndm.py.

    Complex numbers over the real numbers of the standard library; a real number is a
    complex one with imaginary part 0.  One sample of the batch.  The number of features
    is int(alpha * n); kernels are functions of (input, feature).  The logarithm of zero
    is minus infinity, [None]; it absorbs everything added to it. *)
From Coq Require Import List Arith ZArith Bool Reals.
From Verif Require Import Base Rings ARNN_Model ToArray_Model Estim_Model Symm_Model.
Import ListNotations.
Open Scope R_scope.

Definition logval := option cpx.
Definition ladd (a b : logval) : logval :=
  match a, b with Some a, Some b => Some (radd cC a b) | _, _ => None end.
Fixpoint lsum_log (l : list logval) : logval :=
  match l with [] => Some (0, 0) | x :: l => ladd x (lsum_log l) end.
(** a real or complex factor times a logarithm; the factors in the code are 0.5 and 1j,
    of the sums of finite values only *)
Definition lscale (c : cpx) (a : logval) : logval := option_map (rmul cC c) a.

(** jnp.log of a complex number, principal branch *)
Definition clog (z : cpx) : logval :=
  if Req_EM_T (cnorm2 z) 0 then None
  else
    let m := sqrt (cnorm2 z) in
    let a := acos (fst z / m) in
    Some (ln m, if Rle_dec 0 (snd z) then a else - a).

(** activation.py 52-55; signbit of a zero is taken to be 0 (no negative zero) *)
Definition log_cosh (x : cpx) : logval :=
  let sgn := if Rlt_dec (fst x) 0 then -1 else 1 in
  let x := rscal sgn x in
  option_map (fun l => rsub cC (radd cC x l) (ln 2, 0)) (clog (radd cC (1, 0) (cexp (rscal (-2) x)))).

(** jnp.dot of two vectors of length [n] *)
Definition dot (n : nat) (x w : nat -> cpx) : cpx := fsum cC n (fun i => rmul cC (x i) (w i)).
(** nknn.Dense without bias; with it *)
Definition dense (n : nat) (kernel : nat -> nat -> cpx) (bias : option (nat -> cpx)) (x : nat -> cpx) (j : nat) : cpx :=
  let v := dot n x (fun i => kernel i j) in
  match bias with None => v | Some b => radd cC v (b j) end.

(** sum over the features of the activation of a layer *)
Definition hidden (activation : cpx -> logval) (n features : nat) kernel bias (x : nat -> cpx) : logval :=
  lsum_log (map (fun j => activation (dense n kernel bias x j)) (seq 0 features)).

(** rbm.py 32-78 *)
Definition rbm (activation : cpx -> logval) (n features : nat) kernel hidden_bias visible_bias (x : nat -> cpx) : logval :=
  let h := hidden activation n features kernel hidden_bias x in
  match visible_bias with None => h | Some a => ladd h (Some (dot n x a)) end.

(** rbm.py 81-137, two layers with the same [features] *)
Definition rbm_modphase (activation : cpx -> logval) (n features : nat) kernel bias kernel' bias' (x : nat -> cpx) : logval :=
  ladd (hidden activation n features kernel bias x)
       (lscale (0, 1) (hidden activation n features kernel' bias' x)).

(** rbm.py 148-191: jax.nn.one_hot compares the values with 0, 1, ..., n_classes - 1; the
    entry [c] of site [i] is at position i * n_classes + c. *)
Definition one_hot (n_classes : nat) (x : nat -> Z) (p : nat) : cpx :=
  if (x (p / n_classes)%nat =? Z.of_nat (p mod n_classes))%Z then (1, 0) else (0, 0).
Definition rbm_multival (activation : cpx -> logval) (n n_classes features : nat) kernel hidden_bias visible_bias (x : nat -> Z) : logval :=
  rbm activation (n_classes * n) features kernel hidden_bias visible_bias (one_hot n_classes x).

(** rbm.py 194-255; [x] is a list of the values of the sites *)
Definition rbm_symm (activation : cpx -> logval) (perms : list (list nat)) (features : nat) kernel hidden_bias
    (visible_bias : option cpx) (x : list cpx) : logval :=
  let h := lsum_log (map activation (concat (dense_symm cC perms features kernel None hidden_bias x))) in
  match visible_bias with None => h | Some v => ladd h (Some (rmul cC v (lsum cC x))) end.

(** jastrow.py 22-46 *)
Definition jastrow (n : nat) (kernel : nat -> nat -> cpx) (x : nat -> cpx) : cpx :=
  let k i j := radd cC (kernel i j) (kernel j i) in
  fsum cC n (fun i => fsum cC n (fun j => rmul cC (rmul cC (x i) (k i j)) (x j))).

(** ** ndm.py *)
(** 32-88; [symmetric] chooses the sum or the difference *)
Definition pure_rbm (activation : cpx -> logval) (n features : nat) kernel hidden_bias visible_bias
    (symmetric : bool) (sr sc : nat -> cpx) : logval :=
  let xr := hidden activation n features kernel hidden_bias sr in
  let xc := hidden activation n features kernel hidden_bias sc in
  let op := if symmetric then radd cC else rsub cC in
  let y := ladd xr (if symmetric then xc else lscale (-1, 0) xc) in
  let y := match visible_bias with
           | None => y
           | Some a => ladd y (Some (dot n (fun i => op (sr i) (sc i)) a))
           end in
  lscale (1/2, 0) y.
(** 91-143 *)
Definition mixed_rbm (activation : cpx -> logval) (n features : nat) kernel_s kernel_a (bias : option (nat -> cpx))
    (sr sc : nat -> cpx) : logval :=
  lsum_log (map (fun j =>
    let y := radd cC (dense n kernel_s None (fun i => rscal (1/2) (radd cC (sr i) (sc i))) j)
                     (rmul cC (0, 1) (dense n kernel_a None (fun i => rscal (1/2) (rsub cC (sr i) (sc i))) j)) in
    activation (match bias with None => y | Some b => radd cC y (b j) end)) (seq 0 features)).
(** 146-226 *)
Record ndm_params := NdmParams {
  s_kernel : nat -> nat -> cpx; s_hidden : option (nat -> cpx); s_visible : option (nat -> cpx);
  a_kernel : nat -> nat -> cpx; a_hidden : option (nat -> cpx); a_visible : option (nat -> cpx);
  m_symm : nat -> nat -> cpx; m_asymm : nat -> nat -> cpx; m_bias : option (nat -> cpx) }.
Definition ndm (activation : cpx -> logval) (n alpha beta : nat) (p : ndm_params) (sr sc : nat -> cpx) : logval :=
  ladd (ladd (pure_rbm activation n alpha (s_kernel p) (s_hidden p) (s_visible p) true sr sc)
             (lscale (0, 1) (pure_rbm activation n alpha (a_kernel p) (a_hidden p) (a_visible p) false sr sc)))
       (mixed_rbm activation n beta (m_symm p) (m_asymm p) (m_bias p) sr sc).
