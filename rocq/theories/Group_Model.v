(** Model of the permutation groups of netket/utils/group
    (_semigroup.py, _group.py, _permutation_group.py) and of HashableArray
    (netket/utils/array.py).  Permutations are lists of naturals (the index array of
    the Permutation object); exceptions are values of [res]. *)
From Coq Require Import List Arith Bool ZArith.
From Verif Require Import Base.
Import ListNotations.
Open Scope nat_scope.

(** _semigroup.py 30-127, _permutation_group.py 31-78.  Identity, Permutation and
    Composite, and [EOther]: an Element of any other class that acts as the index array
    [p] but registers no product rule with other elements (PermutationGroup's docstring,
    lines 85-87, allows them).  Names of permutations are dropped; Translation
    (space_group.py 38-69) is a Permutation with a name. *)
Inductive elem :=
| EId
| EPerm (p : list nat)
| EOther (p : list nat)
| EComp (l r : elem).

(** numpy fancy indexing [x[p]] of a one-dimensional array. *)
Definition take {A} (x : list A) (p : list nat) : res (list A) :=
  sequence (map (fun i => match nth_error x i with
                          | Some v => Ok v | None => Err IndexError end) p).

(** product(element, array): _semigroup.py 59-61 (Identity), 93-95 (Composite),
    _permutation_group.py 70-72 (Permutation: x[..., p], here for one-dimensional x). *)
Fixpoint apply {A} (e : elem) (x : list A) : res (list A) :=
  match e with
  | EId => Ok x
  | EPerm p | EOther p => take x p
  | EComp l r => let? y := apply r x in apply l y
  end.

Definition is_comp (e : elem) : bool := match e with EComp _ _ => true | _ => false end.

(** product(element, element): the multiple-dispatch rules of _semigroup.py 64-76,
    98-127 and _permutation_group.py 75-78.  The most specific rule is selected; for
    (Composite, Identity) the rules (Element, Identity) and (Composite, Element) both
    apply and neither is more specific, so plum raises AmbiguousLookupError, and the same
    holds for (Identity, Composite); it is recorded as [Exception_]. The recursive call
    follows [ab.right] and [bc.left]; the fuel is the size of the two arguments. *)
Fixpoint prod_fuel (f : nat) (a b : elem) : res elem :=
  match f with
  | O => Err Fault
  | S f' =>
    match a, b with
    | EId, EId => Ok EId
    | EId, EComp _ _ => Err Exception_
    | EComp _ _, EId => Err Exception_
    | EId, _ => Ok b
    | _, EId => Ok a
    | EPerm p, EPerm q => let? r := take q p in Ok (EPerm r)
    | EComp l r, EComp l' r' =>
        let? bc := prod_fuel f' r l' in
        if is_comp bc then Ok (EComp a b) else Ok (EComp l (EComp bc r'))
    | EComp l r, _ =>
        let? bc := prod_fuel f' r b in
        if is_comp bc then Ok (EComp a b) else Ok (EComp l bc)
    | _, EComp l' r' =>
        let? ab := prod_fuel f' a l' in
        if is_comp ab then Ok (EComp a b) else Ok (EComp ab r')
    | _, _ => Ok (EComp a b)
    end
  end.

Fixpoint esize (e : elem) : nat :=
  match e with EComp l r => S (esize l + esize r) | _ => 1 end.

Definition prod (a b : elem) : res elem := prod_fuel (esize a + esize b) a b.

(** _permutation_group.py 81-98: a PermutationGroup is a list of elements and a degree. *)
Record pgroup := PG { elems : list elem; degree : nat }.

(** _permutation_group.py 196-204: product of two groups. *)
Definition group_prod (A B : pgroup) : res pgroup :=
  if negb (Nat.eqb (degree A) (degree B)) then Err ValueError
  else let? es := sequence (map (fun ab => prod (fst ab) (snd ab))
                              (list_prod (elems A) (elems B))) in
       Ok (PG es (degree A)).

(** _permutation_group.py 100-101 _canonical, 103-112 to_array (through _group.py
    _canonical_array). *)
Definition canonical (n : nat) (e : elem) : res (list nat) := apply e (seq 0 n).
Definition to_array (g : pgroup) : res (list (list nat)) :=
  sequence (map (canonical (degree g)) (elems g)).

Fixpoint nlist_eqb (a b : list nat) : bool :=
  match a, b with
  | [], [] => true
  | x :: a', y :: b' => Nat.eqb x y && nlist_eqb a' b'
  | _, _ => false
  end.

(** _group.py 68-75 _canonical_lookup: dict comprehension from canonical forms to
    indices; for equal keys the later index wins.  [None] is a KeyError. *)
Fixpoint lookup_from (i : nat) (rows : list (list nat)) (key : list nat) : option nat :=
  match rows with
  | [] => None
  | r :: rows' => match lookup_from (S i) rows' key with
                  | Some j => Some j
                  | None => if nlist_eqb r key then Some i else None
                  end
  end.
Definition lookup (rows : list (list nat)) (key : list nat) : option nat :=
  lookup_from 0 rows key.

(** Insertion sort, and np.argsort of an array without repetitions. *)
Fixpoint ninsert (x : nat) (l : list nat) : list nat :=
  match l with [] => [x] | y :: l' => if x <=? y then x :: l else y :: ninsert x l' end.
Fixpoint nsort (l : list nat) : list nat :=
  match l with [] => [] | x :: l' => ninsert x (nsort l') end.
Fixpoint find_pos (x : nat) (l : list nat) : nat :=
  match l with [] => 0 | y :: l' => if x =? y then 0 else S (find_pos x l') end.
Definition argsort (p : list nat) : list nat := map (fun v => find_pos v p) (nsort p).

(** _permutation_group.py 143-156 inverse: KeyError becomes RuntimeError. *)
Definition inverse_of (rows : list (list nat)) : res (list nat) :=
  sequence (map (fun p => match lookup rows (argsort p) with
                          | Some i => Ok i | None => Err RuntimeError end) rows).
Definition inverse (g : pgroup) : res (list nat) :=
  let? rows := to_array g in inverse_of rows.

(** _permutation_group.py 160-184 product_table.  Row i*m+j of [inv_elements] is
    perms[j][perms[inverse[i]]].  numpy's squeeze() only affects groups with one element
    or of degree one, for which the remaining indexing yields the same rows.  For a group
    without elements to_array() is a float array, which cannot be used as an index. *)
Definition product_table_of (rows : list (list nat)) (inv : list nat)
  : res (list (list nat)) :=
  sequence (map (fun i =>
    sequence (map (fun pj =>
      let? r := take pj (nth i rows []) in
      match lookup rows r with Some k => Ok k | None => Err RuntimeError end) rows)) inv).
Definition product_table (g : pgroup) : res (list (list nat)) :=
  let? rows := to_array g in
  let? inv := inverse_of rows in
  match rows with
  | [] => Err IndexError
  | _ => product_table_of rows inv
  end.

(** _group.py 141-149 conjugacy_table: product_table[product_table, col_index]. *)
Definition tget (t : list (list nat)) (i j : nat) : nat := nth j (nth i t []) 0.
Definition conjugacy_table_of (pt : list (list nat)) : list (list nat) :=
  map (fun i => map (fun j => tget pt (tget pt i j) j) (seq 0 (length pt)))
      (seq 0 (length pt)).

(** np.unique(rows, axis=0): the distinct rows in increasing lexicographic order;
    return_index: first position of each; return_inverse: for each row its position
    among the distinct ones. *)
Fixpoint lex_ltb (a b : list nat) : bool :=
  match a, b with
  | _, [] => false
  | [], _ :: _ => true
  | x :: a', y :: b' => if x <? y then true else if y <? x then false else lex_ltb a' b'
  end.
Fixpoint uinsert (x : list nat) (l : list (list nat)) : list (list nat) :=
  match l with
  | [] => [x]
  | y :: l' => if nlist_eqb x y then l
               else if lex_ltb x y then x :: l else y :: uinsert x l'
  end.
Definition unique_rows (rows : list (list nat)) : list (list nat) :=
  fold_right uinsert [] rows.
Fixpoint row_pos (x : list nat) (rows : list (list nat)) : nat :=
  match rows with [] => 0 | y :: l => if nlist_eqb x y then 0 else S (row_pos x l) end.
Definition unique_index (rows : list (list nat)) : list nat :=
  map (fun u => row_pos u rows) (unique_rows rows).
Definition unique_inverse (rows : list (list nat)) : list nat :=
  map (fun r => row_pos r (unique_rows rows)) rows.

(** _group.py 77-101 remove_duplicates(return_inverse=True): the elements at the sorted
    first positions, and numpy's inverse array unchanged. *)
Definition remove_duplicates (g : pgroup) : res (pgroup * list nat) :=
  let? rows := to_array g in
  Ok (PG (map (fun i => nth i (elems g) EId) (nsort (unique_index rows))) (degree g),
      unique_inverse rows).

(** _group.py 151-179 conjugacy_classes; booleans are 0/1 as in numpy's ordering. *)
Definition indicator (m : nat) (js : list nat) : list nat :=
  map (fun j => if existsb (Nat.eqb j) js then 1 else 0) (seq 0 m).
Definition conjugacy_classes_of (pt : list (list nat))
  : list (list nat) * list nat * list nat :=
  let m := length pt in
  let is_conjugate := map (indicator m) (conjugacy_table_of pt) in
  let classes := rev (unique_rows is_conjugate) in
  let reps := rev (unique_index is_conjugate) in
  (classes, reps, map (fun k => length reps - 1 - k) (unique_inverse is_conjugate)).
Definition conjugacy_classes (g : pgroup)
  : res (list (list nat) * list nat * list nat) :=
  let? pt := product_table g in Ok (conjugacy_classes_of pt).
