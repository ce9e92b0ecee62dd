(** * LocalOperator with shared arrays (netket/operator/_local_operator.py)

    The other files model operators as values.  Here [_operators] holds references to
    arrays in a heap, so that in-place updates and arrays shared with the caller or with
    other operators are visible.  An array is a dtype (0 real, 1 complex) with a matrix. *)
From Coq Require Import ZArith List Bool.
From Verif Require Import Base Scalar LocalOp_Spec LocalOp_Model.
Import ListNotations.

Section Heap.
Variable S : scalars.
Variable depth : nat.
Notation mat := (mat S).

Definition heap := list (nat * mat).
Definition cell (h : heap) (r : nat) : nat * mat := nth r h (O, []).
Definition hget (h : heap) (r : nat) : mat := snd (cell h r).

Record hop := mkHop {
  ho_refs : list nat;
  ho_act : list (list nat);
  ho_diag : list (list (K S));
  ho_conn : list (list (list (K S * list Z)));
  ho_const : K S;
  ho_nzd : bool;
  ho_herm : bool;
  ho_dtype : nat
}.

(** the value of an operator in a heap *)
Definition snap (h : heap) (o : hop) : lop S :=
  mkLop S (map (hget h) (ho_refs o)) (ho_act o) (ho_diag o) (ho_conn o) (ho_const o)
        (ho_nzd o) (ho_herm o).

Definition hset_nzd (o : hop) (b : bool) : hop :=
  mkHop (ho_refs o) (ho_act o) (ho_diag o) (ho_conn o) (ho_const o) b (ho_herm o) (ho_dtype o).
Definition hset_const (o : hop) (c : K S) : hop :=
  mkHop (ho_refs o) (ho_act o) (ho_diag o) (ho_conn o) c (ho_nzd o) (ho_herm o) (ho_dtype o).
Definition hrefresh (h : heap) (o : hop) : hop :=
  hset_nzd o (has_nonzero_diagonal S (snap h o)).

(** np.asarray(a, dtype): the array itself unless its dtype differs *)
Definition asarray (h : heap) (r dt : nat) : heap * nat :=
  if Nat.eqb (fst (cell h r)) dt then (h, r) else (h ++ [(dt, hget h r)], length h).

(** _reorder_kronecker_product returns its argument when the sites are sorted
    (lines 156-158), otherwise a new array *)
Definition hreorder (hs : list (list Z)) (h : heap) (r : nat) (act : list nat)
  : res (heap * nat * list nat) :=
  let? p := reorder S depth hs (hget h r) act in
  if natlist_eqb (sort_sites act) act then Ok (h, r, act)
  else Ok (h ++ [(fst (cell h r), fst p)], length h, snd p).

(** _add_operator (lines 509-569): the matrix of an existing support is updated in place
    (lines 541-543), a new one is appended without copy (line 574) *)
Definition hadd_operator (hs : list (list Z)) (st : heap * hop) (r : nat) (act : list nat)
  : res (heap * hop) :=
  let h := fst st in let o := snd st in
  if Nat.ltb (ho_dtype o) (fst (cell h r)) then Err ValueError
  else
  let a := asarray h r (ho_dtype o) in
  let h := fst a in let r := snd a in
  if negb (nodupb act) then Err ValueError
  else if existsb (fun s => Nat.leb (length hs) s) act then Err ValueError
  else if forallb (forallb (fun k => negb (kbige S k))) (hget h r) then Ok (h, o)
  else
    let? p := hreorder hs h r act in
    let h := fst (fst p) in let r := snd (fst p) in let act := snd p in
    let lss := lss_of hs act in
    match find_support (ho_act o) act O with
    | Some i =>
        let t := nth i (ho_refs o) O in
        let m := add_block S (hget h t) (hget h r) in
        let h := upd h t (fst (cell h t), m) in
        let? dc := append_matrix S m lss in
        let o' := mkHop (ho_refs o) (ho_act o) (upd (ho_diag o) i (fst dc))
                        (upd (ho_conn o) i (snd dc)) (ho_const o) (ho_nzd o)
                        (forallb (is_herm_mat S) (map (hget h) (ho_refs o))) (ho_dtype o) in
        Ok (h, hrefresh h o')
    | None =>
        if negb (Nat.eqb (nrows S (hget h r)) (nprod (map (@length Z) lss)))
        then Err RuntimeError
        else
          let? dc := append_matrix S (hget h r) lss in
          let refs := ho_refs o ++ [r] in
          let o' := mkHop refs (ho_act o ++ [act]) (ho_diag o ++ [fst dc])
                          (ho_conn o ++ [snd dc]) (ho_const o) (ho_nzd o)
                          (forallb (is_herm_mat S) (map (hget h) refs)) (ho_dtype o) in
          Ok (h, hrefresh h o')
    end.

Definition hadd_operators (hs : list (list Z)) (st : heap * hop)
  (terms : list (nat * list nat)) : res (heap * hop) :=
  fold_left (fun acc t => let? a := acc in hadd_operator hs a (fst t) (snd t)) terms (Ok st).

(** constructor (lines 198-269); without dtype argument, that of the first array
    (lines 246-249: the promotions with the others are discarded) *)
Definition default_dtype (h : heap) (terms : list (nat * list nat)) : nat :=
  match terms with [] => O | t :: _ => fst (cell h (fst t)) end.
Definition hmk (hs : list (list Z)) (h : heap) (dt : nat) (c : K S)
  (terms : list (nat * list nat)) : res (heap * hop) :=
  if negb (forallb is_sorted hs) then Err ValueError
  else hadd_operators hs (h, mkHop [] [] [] [] c (kbige S c) true dt)
         (filter (fun t => match snd t with [] => false | _ => true end) terms).

(** new arrays computed from those of [o] *)
Definition halloc (f : mat -> mat) (h : heap) (o : hop) : heap * list (nat * list nat) :=
  (h ++ map (fun r => (fst (cell h r), f (hget h r))) (ho_refs o),
   combine (seq (length h) (length (ho_refs o))) (ho_act o)).

(** copy (lines 773-793), transpose (795-808), conjugate (810-820) *)
Definition hcopy (hs : list (list Z)) (h : heap) (o : hop) (dt : nat) : res (heap * hop) :=
  let a := halloc (fun m => m) h o in hmk hs (fst a) dt (ho_const o) (snd a).
Definition htranspose (hs : list (list Z)) (h : heap) (o : hop) : res (heap * hop) :=
  let a := halloc (transpose_mat S) h o in
  hmk hs (fst a) (default_dtype (fst a) (snd a)) (ho_const o) (snd a).
Definition hconjugate (hs : list (list Z)) (h : heap) (o : hop) : res (heap * hop) :=
  let a := halloc (conj_mat S) h o in
  hmk hs (fst a) (default_dtype (fst a) (snd a)) (kconj S (ho_const o)) (snd a).

(** __iadd__ (lines 328-358) *)
Definition hiadd (hs : list (list Z)) (h : heap) (o b : hop) : res (heap * hop) :=
  if Nat.ltb (ho_dtype o) (ho_dtype b) then Err ValueError
  else
    let? st := hadd_operators hs (h, o) (combine (ho_refs b) (ho_act b)) in
    let o' := hset_const (snd st) (kadd S (ho_const (snd st)) (ho_const b)) in
    Ok (fst st, hrefresh (fst st) o').
Definition hiadd_number (h : heap) (o : hop) (dt : nat) (x : K S) : res (heap * hop) :=
  if Nat.ltb (ho_dtype o) dt then Err ValueError
  else Ok (h, hrefresh h (hset_const o (kadd S (ho_const o) x))).

(** __imul__ with a number (lines 395-414): every array of [_operators] is multiplied in
    place, one after the other *)
Definition hscale (c : K S) (h : heap) (r : nat) : heap :=
  upd h r (fst (cell h r), scale_mat S c (hget h r)).
Definition himul (h : heap) (o : hop) (c : K S) : heap * hop :=
  let h' := fold_left (hscale c) (ho_refs o) h in
  (h', hrefresh h'
    (mkHop (ho_refs o) (ho_act o) (map (map (fun k => kmul S k c)) (ho_diag o))
       (map (map (map (fun p => (kmul S (fst p) c, snd p)))) (ho_conn o))
       (kmul S (ho_const o) c) (ho_nzd o) (ho_herm o) (ho_dtype o))).

(** out-of-place operations; [dt] is the dtype of the number *)
Definition hadd hs h a b : res (heap * hop) :=
  let? s := hcopy hs h a (Nat.max (ho_dtype a) (ho_dtype b)) in hiadd hs (fst s) (snd s) b.
Definition hadd_number hs h a dt x : res (heap * hop) :=
  let? s := hcopy hs h a (Nat.max (ho_dtype a) dt) in hiadd_number (fst s) (snd s) dt x.
Definition hmul hs h a dt c : res (heap * hop) :=
  let? s := hcopy hs h a (Nat.max (ho_dtype a) dt) in Ok (himul (fst s) (snd s) c).
Definition hneg hs h a : res (heap * hop) := hmul hs h a O (kopp S (k1 S)).
Definition hsub hs h a b : res (heap * hop) :=
  let? s := hneg hs h b in hadd hs (fst s) a (snd s).

(** expressions over the caller's arrays; numbers come with their dtype *)
Inductive hexpr :=
| HNew (c : K S) (terms : list (nat * list nat))
| HPlus (a b : hexpr)
| HPlusNum (a : hexpr) (dt : nat) (c : K S)
| HTimes (a : hexpr) (dt : nat) (c : K S)
| HNeg (a : hexpr)
| HMinus (a b : hexpr)
| HTransp (a : hexpr)
| HConj (a : hexpr).

Fixpoint heval (hs : list (list Z)) (h : heap) (e : hexpr) : res (heap * hop) :=
  match e with
  | HNew c terms => hmk hs h (default_dtype h terms) c terms
  | HPlus a b =>
      let? x := heval hs h a in let? y := heval hs (fst x) b in hadd hs (fst y) (snd x) (snd y)
  | HPlusNum a dt c => let? x := heval hs h a in hadd_number hs (fst x) (snd x) dt c
  | HTimes a dt c => let? x := heval hs h a in hmul hs (fst x) (snd x) dt c
  | HNeg a => let? x := heval hs h a in hneg hs (fst x) (snd x)
  | HMinus a b =>
      let? x := heval hs h a in let? y := heval hs (fst x) b in hsub hs (fst y) (snd x) (snd y)
  | HTransp a => let? x := heval hs h a in htranspose hs (fst x) (snd x)
  | HConj a => let? x := heval hs h a in hconjugate hs (fst x) (snd x)
  end.

(** the same expression over the values of the arrays *)
Fixpoint erase (h : heap) (e : hexpr) : expr S :=
  match e with
  | HNew c terms => New S c (map (fun t => (hget h (fst t), snd t)) terms)
  | HPlus a b => Plus S (erase h a) (erase h b)
  | HPlusNum a _ c => PlusNum S (erase h a) c
  | HTimes a _ c => Times S (erase h a) c
  | HNeg a => Neg S (erase h a)
  | HMinus a b => Minus S (erase h a) (erase h b)
  | HTransp a => Transp S (erase h a)
  | HConj a => Conj S (erase h a)
  end.

End Heap.
