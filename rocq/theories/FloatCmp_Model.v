(** * Comparing floating point numbers (netket/utils/float.py)

    Numbers are rational; the rounding errors of the float operations inside these functions
    are not modelled, nor is the overflow of the conversion to int. *)
From Coq Require Import List ZArith QArith Qround Qabs Bool.
Import ListNotations.
Open Scope Q_scope.

(** numpy.rint: to the nearest integer, ties to the even one *)
Definition rint (q : Q) : Z :=
  let f := Qfloor q in
  match Qcompare (q - inject_Z f) (1 # 2) with
  | Lt => f
  | Gt => (f + 1)%Z
  | Eq => if Z.even f then f else (f + 1)%Z
  end.

(** 22-24: the defaults *)
Definition bin_density : Z := 3326400.
Definition offset : Q := 5413 # 15629.

(** 22-47 *)
Definition comparable_with (density : Z) (off x : Q) : Z := rint (x * inject_Z density + off).
Definition comparable (x : Q) : Z := comparable_with bin_density offset x.
(** 50-83; [where_]: take the fractional part *)
Definition comparable_periodic_with (density : Z) (off : Q) (where_ : bool) (x : Q) : Z :=
  let bins := comparable_with density off x in if where_ then (bins mod density)%Z else bins.
Definition comparable_periodic (where_ : bool) (x : Q) : Z :=
  comparable_periodic_with bin_density offset where_ x.

(** 105-110; np.isclose(a, b, rtol=0, atol): |a - b| <= atol *)
Definition isclose (a b atol : Q) : bool := Qle_bool (Qabs (a - b)) atol.
Definition is_approx_int (atol x : Q) : bool := isclose x (inject_Z (rint x)) atol.

(** ** prune_zeros.  An array: whether its type is complex, and its entries. *)
Record arr := Arr { a_complex : bool; a_vals : list (Q * Q) }.
Definition default_atol : Q := 1 # 100000000.
(** 87-90: one entry *)
Definition prune (atol q : Q) : Q := if isclose q 0 atol then 0 else q.
Record pruned := Pruned {
  p_result : arr;       (* what is returned *)
  p_argument : arr;     (* the argument after the call: _prune_zeros writes into it *)
  p_shares : bool       (* the returned array and the argument are the same memory *)
}.
(** 92-101.  [_prune_zeros] is called without the tolerance. *)
Definition prune_zeros (atol : Q) (x : arr) : pruned :=
  if a_complex x then
    if forallb (fun z => isclose (snd z) 0 atol) (a_vals x) then
      Pruned (Arr false (map (fun z => (prune default_atol (fst z), 0)) (a_vals x)))
             (Arr true (map (fun z => (prune default_atol (fst z), snd z)) (a_vals x))) true
    else
      let v := map (fun z => (prune default_atol (fst z), prune default_atol (snd z))) (a_vals x) in
      Pruned (Arr true v) (Arr true v) false
  else
    let v := map (fun z => (prune default_atol (fst z), 0)) (a_vals x) in
    Pruned (Arr false v) (Arr false v) true.
