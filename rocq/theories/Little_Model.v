(** * Little groups and space-group irreps (netket/graph/space_group.py 184-290)

    A wave vector k is given by the numbers y_d = k . a_d / 2 pi, where a_d are the basis
    vectors: exact rationals.  A point-group symmetry x -> W x + w acts on them by a matrix
    ([k_form] below); w is given by its components with respect to the basis.  The character
    table of the little group (numpy's eigenvalue solver) is an argument; sines and cosines
    are exact. *)
From Coq Require Import List Arith Bool ZArith QArith Qreals Qcanon Reals.
From Verif Require Import Base Rings FloatCmp_Model LatGen_Model PointGp_Model ARNN_Model Estim_Model SpaceGp_Model.
Import ListNotations.
Open Scope nat_scope.

Record ksym := KS { k_mat : mat; k_w : vec }.
(** the extent and the boundary conditions *)
Record kbox := KB { b_extent : list Z; b_pbc : list bool }.
Definition b_ext (B : kbox) (d : nat) : Z := nth d (b_extent B) 0%Z.
Definition b_dim (B : kbox) : nat := length (b_extent B).

(** lattice.py 508-553: to_reciprocal_lattice; InvalidWaveVectorError is an Exception *)
Definition to_reciprocal (B : kbox) (ys : list vec) : res (list (list Z)) :=
  let D := b_dim B in
  let r := map (fun y : vec => map (fun d => this (zc (b_ext B d) * y d)%Qc) (seq 0 D)) ys in
  if negb (forallb (forallb (is_approx_int default_atol)) r) then Err Exception_
  else
    let k := map (map rint) r in
    if negb (forallb (fun row => forallb (fun d => nth d (b_pbc B) false || Z.eqb (nth d row 0%Z) 0) (seq 0 D)) k)
    then Err Exception_
    else Ok k.

(** p(k) for all p *)
Definition star (D : nat) (G : list ksym) (y : vec) : list vec := map (fun s => mvec D (k_mat s) y) G.
(** 184-197: _little_group_index *)
Definition little_index (B : kbox) (G : list ksym) (y : vec) : res (list nat) :=
  let? big := to_reciprocal B (star (b_dim B) G y) in
  let m := map (fun row => map (fun d => (nth d row 0 mod b_ext B d)%Z) (seq 0 (b_dim B))) big in
  match m with
  | [] => Err IndexError
  | first :: _ => Ok (filter (fun i => if list_eq_dec Z.eq_dec (nth i m []) first then true else false) (seq 0 (length G)))
  end.

(** 216-227: _little_group_irreps with divide=True.  The array is real: writing complex
    characters into it keeps their real parts (numpy warns). *)
Fixpoint scatter (idx : list nat) (row : list cpx) (g : nat) : R :=
  match idx, row with
  | i :: idx, x :: row => if Nat.eqb g i then fst x else scatter idx row g
  | _, _ => 0%R
  end.
Definition little_irreps (idx : list nat) (CT : list (list cpx)) : list (nat -> R) :=
  map (fun row g => (scatter idx row g / INR (length idx))%R) CT.

(** exp(-i x), x = 2 pi q *)
Definition phase (q : Q) : cpx := (cos (2 * PI * Q2R q), - sin (2 * PI * Q2R q))%R.
(** utils/float.py 87-102: prune_zeros, entry by entry (if no imaginary part exceeds the
    tolerance the result is a real array with the same values) *)
Definition prune_r (x : R) : R := if Rle_dec (Rabs x) (1 / 100000000)%R then 0%R else x.
Definition prune_c (z : cpx) : cpx := (prune_r (fst z), prune_r (snd z)).

(** 256-275: the translations along the axes, the last varying fastest *)
Fixpoint trans_tuples (B : kbox) (axes : list nat) : list (list Z) :=
  match axes with
  | [] => [[]]
  | a :: axes => flat_map (fun k => map (cons (Z.of_nat k)) (trans_tuples B axes))
                   (seq 0 (if nth a (b_pbc B) false then Z.to_nat (b_ext B a) else 1))
  end.
(** product over the axes of exp(-i t_d 2 pi k_d / extent_d) *)
Fixpoint trans_factor (B : kbox) (axes : list nat) (t : list Z) (k : list Z) : cpx :=
  match axes, t with
  | a :: axes, x :: t => rmul cC (phase (inject_Z (x * nth a k 0%Z) / inject_Z (b_ext B a))) (trans_factor B axes t k)
  | _, _ => (1, 0)%R
  end.

(** 229-282: space_group_irreps; [ct g p] is conjugacy_table[g, p], [CT] the character table
    of the little group.  The reduction over no axes raises TypeError. *)
Definition irreps (B : kbox) (G : list ksym) (ct : nat -> nat -> nat) (CT : list (list cpx)) (y : vec)
  : res (list (list cpx)) :=
  let D := b_dim B in
  let n := length G in
  let? idx := little_index B G y in
  let? big := to_reciprocal B (star D G y) in
  if Nat.eqb D 0 then Err TypeError
  else
    let p_of := fun p => nth p (star D G y) (fun _ => 0%Qc) in
    let dot := fun g p => this (qs D (fun d => k_w (nth g G (KS eye (fun _ => 0%Qc))) d * p_of p d)%Qc) in
    Ok (map (fun X : nat -> R =>
          map (fun tg => prune_c (fsum cC n (fun p =>
                 rmul cC (rmul cC (X (ct (snd tg) p), 0%R) (phase (dot (snd tg) p)))
                         (trans_factor B (seq 0 D) (fst tg) (nth p big [])))))
            (list_prod (trans_tuples B (seq 0 D)) (seq 0 n)))
        (little_irreps idx CT)).

(** The matrix of W on the numbers k . a_d / 2 pi: basis vectors in the rows of [U], [V] its inverse. *)
Definition k_form (n : nat) (U V W : mat) : mat := fun d c => qs n (fun i => U d i * qs n (fun j => W i j * V j c))%Qc.
Definition k_components (n : nat) (U : mat) (k : vec) : vec := fun d => qs n (fun i => U d i * k i)%Qc.
