(** * Model of netket/hilbert: indexing of discrete Hilbert spaces

    Quantum numbers are integers.  The real code stores float64; every built-in space
    uses integral values, and the indexing code only compares, sorts and copies the
    values of a CustomHilbert, so that any finite set of floats may be replaced by an
    order-isomorphic set of integers.  A batch of states is handled element by element
    (the code maps the same conversion over the rows); one batch call raises as soon as
    one of its elements does. *)
From Coq Require Import ZArith QArith List Bool Lia.
From Verif Require Import Base.
Import ListNotations.
Open Scope Z_scope.

(** netket/hilbert/abstract_hilbert.py:24 and discrete_hilbert.py:22 *)
Definition max_states : Z := 2 ^ 31 - 1.

(** np.iinfo(np.intp).max, used by netket/hilbert/fock.py:94 *)
Definition max_ind : Z := 2 ^ 63 - 1.

(** Python's round() to an integer: nearest, ties to even. *)
Definition py_round (q : Q) : Z :=
  let f := Qnum q / Zpos (Qden q) in
  let r2 := 2 * (Qnum q mod Zpos (Qden q)) in
  if r2 <? Zpos (Qden q) then f
  else if Zpos (Qden q) <? r2 then f + 1
  else if Z.even f then f else f + 1.

(** Python's int() on a float: truncation towards zero. *)
Definition py_int (q : Q) : Z := Z.quot (Qnum q) (Zpos (Qden q)).

(** Hilbert-space objects after construction.
    - [Fock n_max finite N np]: netket/hilbert/fock.py:65-98.  [finite] is whether
      local_states is not None; [np] is [Some (n_particles, id)].
    - [Spin s2 N tsz]: netket/hilbert/spin.py:86-109; [s2] is 2*s (the constructor
      asserts that it is integral), [tsz] is [Some (total_sz, id)].
    - [Qubit N]: netket/hilbert/qubit.py:41-43.
    - [Custom ls N c]: netket/hilbert/custom_hilbert.py:56-58; the constraint is a
      pointwise predicate on configurations.
    - [Tensor l]: netket/hilbert/tensor_hilbert.py:30-61.
    - [Doubled h]: netket/hilbert/doubled_hilbert.py:51-54.
    The [id] is the identity of the constraint closure created by the constructor;
    Python compares functions by identity (see [hilbert_eqb]). *)
Inductive hilbert :=
| Fock (n_max : Z) (finite : bool) (N : nat) (n_particles : option (Z * nat))
| Spin (s2 : nat) (N : nat) (total_sz : option (Q * nat))
| Qubit (N : nat)
| Custom (ls : option (list Z)) (N : nat) (c : option ((list Z -> bool) * nat))
| Tensor (l : list hilbert)
| Doubled (h : hilbert).

(** netket/hilbert/fock.py:65-98 ([id] is the identity of the closure built at 83-84).
    np.arange of max_ind+1 elements (line 92) is rejected by numpy; other sizes are
    assumed to fit in memory. *)
Definition mk_Fock (n_max : option Z) (N : nat) (n_particles : option Z) (id : nat)
  : res hilbert :=
  let? p :=
    match n_particles with
    | Some p =>
        if 0 <? p then
          match n_max with
          | None => Ok (Some p)
          | Some m => if m * Z.of_nat N <? p then Err Exception_ else Ok (Some m)
          end
        else Err AssertionError
    | None => Ok n_max
    end in
  let np := option_map (fun x => (x, id)) n_particles in
  match p with
  | Some m => if max_ind <? m + 1 then Err ValueError else Ok (Fock m true N np)
  | None => Ok (Fock max_ind false N np)
  end.

(** netket/hilbert/spin.py:26-51 *)
Definition check_total_sz (total_sz : option Q) (s2 N : nat) : res unit :=
  match total_sz with
  | None => Ok tt
  | Some sz =>
      let m := py_round (2 * sz) in
      if Z.of_nat N * Z.of_nat s2 <? Z.abs m then Err ValueError
      else if (Z.of_nat s2 + 1) mod 2 =? 0 then
        if negb ((Z.of_nat N + m) mod 2 =? 0) then Err ValueError else Ok tt
      else if negb (m mod 2 =? 0) then Err ValueError else Ok tt
  end.

(** netket/hilbert/spin.py:86-109 *)
Definition mk_Spin (s2 N : nat) (total_sz : option Q) (id : nat) : res hilbert :=
  let? _ := check_total_sz total_sz s2 N in
  Ok (Spin s2 N (option_map (fun x => (x, id)) total_sz)).

(** Local states of the homogeneous spaces: fock.py:92, spin.py:93-95, qubit.py:43,
    homogeneous.py:71-75.  [None] for infinitely many (or for composite spaces). *)
Definition local_states (h : hilbert) : option (list Z) :=
  match h with
  | Fock n_max finite _ _ => if finite then Some (zrange (n_max + 1)) else None
  | Spin s2 _ _ =>
      Some (map (fun i => - Z.of_nat s2 + 2 * Z.of_nat i) (seq 0 (s2 + 1)))
  | Qubit _ => Some [0; 1]
  | Custom ls _ _ => ls
  | Tensor _ | Doubled _ => None
  end.

(** constraint functions: fock.py:27-29 and 83-84, spin.py:54-56 and 100-101,
    homogeneous.py:82-83. *)
Definition constraint_fn (h : hilbert) : option (list Z -> bool) :=
  match h with
  | Fock _ _ _ (Some (p, _)) => Some (fun x => zsum x =? p)
  | Spin _ _ (Some (sz, _)) => Some (fun x => zsum x =? py_round (2 * sz))
  | Custom _ _ (Some (c, _)) => Some c
  | _ => None
  end.

(** [size]: homogeneous.py:90-93, tensor_hilbert.py:46, doubled_hilbert.py:52 *)
Fixpoint hsize (h : hilbert) : nat :=
  match h with
  | Fock _ _ N _ | Spin _ N _ | Qubit N | Custom _ N _ => N
  | Tensor l => list_sum (map hsize l)
  | Doubled p => 2 * hsize p
  end.

(** ** HilbertIndex (netket/hilbert/hilbert_index.py:28-122)

    [ls] is the array after np.sort (line 31); sizes and indices are exact (the class is
    only used on spaces with at most [max_states] states, see [homog_index]). *)

(** hilbert_index.py:35-39: the loop that fills [_basis]. *)
Fixpoint basis_from (local_size ba : Z) (size : nat) : list Z :=
  match size with
  | O => []
  | S k => ba :: basis_from local_size (ba * local_size) k
  end.

Definition hi_basis (ls : list Z) (size : nat) : list Z :=
  basis_from (Z.of_nat (length ls)) 1 size.

(** hilbert_index.py:44-46 *)
Definition hi_n_states (ls : list Z) (size : nat) : Z :=
  Z.of_nat (length ls) ^ Z.of_nat size.

(** hilbert_index.py:52-64 and the inner loop of 84-100. *)
Definition hi_state_to_number (ls : list Z) (size : nat) (state : list Z) : Z :=
  fold_left
    (fun number i =>
       number + Z.of_nat (searchsorted ls (nth (size - i - 1) state 0))
                * nth i (hi_basis ls size) 0)
    (seq 0 size) 0.

(** hilbert_index.py:75-80: the while loop; [k] is one more than the Python variable of
    the same name, running off the front of the array is a fault. *)
Fixpoint hi_digits_loop (ls : list Z) (k : nat) (ip : Z) (out : list Z)
  : res (list Z) :=
  if 0 <? ip then
    match k with
    | O => Err Fault
    | S k' =>
        let b := Z.of_nat (length ls) in
        hi_digits_loop ls k' (ip / b) (upd out k' (nth (Z.to_nat (ip mod b)) ls 0))
    end
  else Ok out.

(** hilbert_index.py:66-82 *)
Definition hi_number_to_state (ls : list Z) (size : nat) (number : Z)
  : res (list Z) :=
  hi_digits_loop ls size number (repeat (nth 0 ls 0) size).

(** ** HomogeneousHilbert (netket/hilbert/homogeneous.py) *)

(** homogeneous.py:151-167 with 26-28 and hilbert_index.py:116-122: the sorted local
    states together with [_bare_numbers], or the exception of line 154.
    [is_indexable] (discrete_hilbert.py:201-208) compares a sum of logarithms with
    log(max_states); here the product is compared exactly. *)
Definition homog_index (ls0 : option (list Z)) (N : nat) (c : option (list Z -> bool))
  : res (list Z * list Z) :=
  match ls0 with
  | None => Err RuntimeError
  | Some l =>
      if Z.of_nat (length l) ^ Z.of_nat N <=? max_states then
        let ls := np_sort l in
        match c with
        | None => Ok (ls, [])
        | Some cf =>
            Ok (ls, filter (fun i => match hi_number_to_state ls N i with
                                     | Ok st => cf st
                                     | Err _ => false
                                     end)
                           (zrange (hi_n_states ls N)))
        end
      else Err RuntimeError
  end.

(** homogeneous.py:112-122 *)
Definition homog_n_states ls0 N (c : option (list Z -> bool)) : res Z :=
  let? ix := homog_index ls0 N c in
  match c with
  | None => Ok (hi_n_states (fst ix) N)
  | Some _ => Ok (Z.of_nat (length (snd ix)))
  end.

(** homogeneous.py:134-136 and 169-173; numpy fancy indexing with a negative number
    counts from the end. *)
Definition homog_numbers_to_states ls0 N (c : option (list Z -> bool)) (n : Z)
  : res (list Z) :=
  let? ix := homog_index ls0 N c in
  match c with
  | None => hi_number_to_state (fst ix) N n
  | Some _ =>
      let bare := snd ix in
      let len := Z.of_nat (length bare) in
      let k := if n <? 0 then n + len else n in
      if (0 <=? k) && (k <? len)
      then hi_number_to_state (fst ix) N (nth (Z.to_nat k) bare 0)
      else Err IndexError
  end.

(** homogeneous.py:138-149 and 31-36 *)
Definition homog_states_to_numbers ls0 N (c : option (list Z -> bool)) (st : list Z)
  : res Z :=
  let? ix := homog_index ls0 N c in
  let number := hi_state_to_number (fst ix) N st in
  match c with
  | None => Ok number
  | Some _ =>
      let found := searchsorted (snd ix) number in
      if (length (snd ix) <=? found)%nat then Err RuntimeError
      else Ok (Z.of_nat found)
  end.

(** ** All spaces *)

(** n_states: homogeneous.py:112-122, tensor_hilbert.py:48-54 (np.prod over int64),
    doubled_hilbert.py:92-94.  For a homogeneous physical space the square is a Python
    int; it is below 2^62, so that wrapping it changes nothing. *)
Fixpoint n_states (h : hilbert) : res Z :=
  match h with
  | Tensor l =>
      let? ns := sequence (map n_states l) in
      Ok (fold_left (fun a d => wrap64 (a * d)) ns 1)
  | Doubled p => let? d := n_states p in Ok (wrap64 (d * d))
  | Fock _ _ N _ | Spin _ N _ | Qubit N | Custom _ N _ =>
      homog_n_states (local_states h) N (constraint_fn h)
  end.

(** numbers_to_states on one number: discrete_hilbert.py:117-139 (range check), then
    homogeneous.py:134-136 / tensor_hilbert.py:94-114 / doubled_hilbert.py:96-115.
    The tensor loop runs over the factors from the last to the first; the slices of
    [out] that it fills are disjoint and adjacent, so they are concatenated. *)
Fixpoint numbers_to_states (h : hilbert) (n : Z) : res (list Z) :=
  let? total := n_states h in
  if total <=? n then Err ValueError else
  match h with
  | Tensor l =>
      let? r :=
        fold_right
          (fun hi acc =>
             let? a := acc in
             let? d := n_states hi in
             let? blk := numbers_to_states hi (fst a mod d) in
             Ok (fst a / d, blk ++ snd a))
          (Ok (n, [])) l in
      Ok (snd r)
  | Doubled p =>
      let? d := n_states p in
      let? a := numbers_to_states p (n / d) in
      let? b := numbers_to_states p (n mod d) in
      Ok (a ++ b)
  | Fock _ _ N _ | Spin _ N _ | Qubit N | Custom _ N _ =>
      homog_numbers_to_states (local_states h) N (constraint_fn h) n
  end.

(** np.cumprod on int64 *)
Fixpoint cumprod (acc : Z) (l : list Z) : list Z :=
  match l with
  | [] => []
  | x :: l' => let a := wrap64 (acc * x) in a :: cumprod a l'
  end.

(** tensor_hilbert.py:51-53: [_cum_ns_states_r] *)
Definition cum_ns_states_r (ns : list Z) : list Z :=
  rev (removelast (cumprod 1 (1 :: rev ns))).

(** tensor_hilbert.py:124-128: [fs] pairs the size of each factor with its
    states_to_numbers; the caller of each factor performs the shape check of
    discrete_hilbert.py:156. *)
Fixpoint tensor_s2n_loop (fs : list (nat * (list Z -> res Z))) (dims : list Z)
  (st : list Z) (out : Z) : res Z :=
  match fs, dims with
  | (sz, f) :: fs', dim :: dims' =>
      let part := firstn sz st in
      if negb (Nat.eqb (length part) sz) then Err ValueError else
      let? temp := f part in
      tensor_s2n_loop fs' dims' (skipn sz st) (wrap64 (out + wrap64 (temp * dim)))
  | _, _ => Ok out
  end.

(** _states_to_numbers on one state: homogeneous.py:138-149,
    tensor_hilbert.py:116-130, doubled_hilbert.py:117-130. *)
Fixpoint states_to_numbers_ (h : hilbert) (st : list Z) : res Z :=
  match h with
  | Tensor l =>
      let? ns := sequence (map n_states l) in
      tensor_s2n_loop (map (fun hi => (hsize hi, states_to_numbers_ hi)) l)
                      (cum_ns_states_r ns) st 0
  | Doubled p =>
      let n := hsize p in
      let? dim := n_states p in
      let? l := states_to_numbers_ p (firstn n st) in
      let? r := states_to_numbers_ p (firstn n (skipn n st)) in
      Ok (wrap64 (r + wrap64 (l * dim)))
  | Fock _ _ N _ | Spin _ N _ | Qubit N | Custom _ N _ =>
      homog_states_to_numbers (local_states h) N (constraint_fn h) st
  end.

(** states_to_numbers on one state: discrete_hilbert.py:141-172 *)
Definition states_to_numbers (h : hilbert) (st : list Z) : res Z :=
  if Nat.eqb (length st) (hsize h) then states_to_numbers_ h st else Err ValueError.

(** all_states: discrete_hilbert.py:184-198 *)
Definition all_states (h : hilbert) : res (list (list Z)) :=
  let? total := n_states h in
  sequence (map (numbers_to_states h) (zrange total)).
