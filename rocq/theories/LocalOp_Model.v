(** * Model of netket/operator/_local_operator.py: LocalOperator

    Arrays padded to a common size ([_acting_on], [_local_states], [_basis],
    [_diag_mels], [_mels], [_x_prime], [_n_conns]) are modelled without the padding, as
    one entry per term.  [_local_states] and [_basis] are functions of the Hilbert space
    and of the sites of a term and are recomputed where they are used.  dtypes are not
    modelled. *)
From Coq Require Import ZArith List Bool Lia.
From Verif Require Import Base Hilbert_Model HilbertOps_Model Scalar LocalOp_Spec.
Import ListNotations.

(** The Hilbert space is seen through [states_at_index(i)] for every site
    (homogeneous.py:109-110, tensor_hilbert.py:83-88, doubled_hilbert.py:81-86). *)
Fixpoint site_states (h : hilbert) : list (list Z) :=
  match h with
  | Tensor l => concat (map site_states l)
  | Doubled p => site_states p ++ site_states p
  | Fock _ _ N _ | Spin _ N _ | Qubit N | Custom _ N _ =>
      repeat (match local_states h with Some ls => ls | None => [] end) N
  end.

(** np.sort on sites *)
Definition sort_sites (l : list nat) : list nat :=
  map Z.to_nat (np_sort (map Z.of_nat l)).

Fixpoint natlist_eqb (a b : list nat) : bool :=
  match a, b with
  | [], [] => true
  | x :: a', y :: b' => Nat.eqb x y && natlist_eqb a' b'
  | _, _ => false
  end.

Definition nat_mem (x : nat) (l : list nat) : bool := existsb (Nat.eqb x) l.

Fixpoint nodupb (l : list nat) : bool :=
  match l with [] => true | x :: l' => negb (nat_mem x l') && nodupb l' end.

(** np.argmax(site == sorted): the first position *)
Fixpoint first_pos (x : nat) (l : list nat) : nat :=
  match l with [] => O | y :: l' => if Nat.eqb x y then O else S (first_pos x l') end.

(** _local_operator.py:72-76 *)
Fixpoint is_sorted (l : list Z) : bool :=
  match l with
  | x :: (y :: _) as t => negb (y <? x)%Z && is_sorted t
  | _ => true
  end.

(** product of sizes *)
Definition nprod (l : list nat) : nat := fold_right Nat.mul 1%nat l.

(** a reported write / read outside an array *)
Definition bset {A} (l : list A) (i : nat) (v : A) : res (list A) :=
  if Nat.ltb i (length l) then Ok (upd l i v) else Err Fault.
Definition bget {A} (l : list A) (i : nat) : res A :=
  match nth_error l i with Some a => Ok a | None => Err Fault end.

(** ** _number_to_state (lines 30-43), with one list of local states per site *)
Fixpoint n2s_loop (lss : list (list Z)) (k ip : nat) (out : list Z) : res (list Z) :=
  if Nat.ltb 0 ip then
    match k with
    | O => Err Fault
    | S k' =>
        let ls := nth k' lss [] in
        let local_size := length ls in
        n2s_loop lss k' (ip / local_size) (upd out k' (nth (ip mod local_size) ls 0%Z))
    end
  else Ok out.

Definition number_to_state (number : nat) (lss : list (list Z)) : res (list Z) :=
  n2s_loop lss (length lss) number (map (fun ls => nth 0 ls 0%Z) lss).

(** lines 630-633: [_basis] *)
Fixpoint basis_loop (dims_rev : list nat) (ba : nat) : list nat :=
  match dims_rev with
  | [] => []
  | d :: ds => ba :: basis_loop ds (ba * d)
  end.
Definition basis_of (lss : list (list Z)) : list nat :=
  basis_loop (rev (map (@length Z) lss)) 1.

(** lines 936-948: [xs_n] for one term *)
Definition xs_index (lss : list (list Z)) (x_i : list Z) : nat :=
  let n := length lss in
  fold_left
    (fun acc k =>
       (acc + searchsorted (nth (n - k - 1) lss []) (nth (n - k - 1) x_i 0%Z)
              * nth k (basis_of lss) 0)%nat)
    (seq 0 n) O.

Section LocalOperator.
Variable S : scalars.
(** interpreter stack available to products of Hilbert spaces *)
Variable depth : nat.

Definition mat := list (list (K S)).
Definition mget (m : mat) (i j : nat) : K S := nth j (nth i m []) (k0 S).
Definition mbuild (n m : nat) (f : nat -> nat -> K S) : mat :=
  map (fun i => map (f i) (seq 0 m)) (seq 0 n).
Definition nrows (m : mat) : nat := length m.
Definition ncols (m : mat) : nat := length (nth 0 m []).

Definition ksum (l : list (K S)) : K S := fold_right (kadd S) (k0 S) l.

(** np.matmul, np.kron, np.eye *)
Definition matmul (a b : mat) : mat :=
  mbuild (nrows a) (ncols b)
    (fun i j => ksum (map (fun k => kmul S (mget a i k) (mget b k j)) (seq 0 (nrows b)))).
Definition kron (a b : mat) : mat :=
  mbuild (nrows a * nrows b) (ncols a * ncols b)
    (fun i j => kmul S (mget a (i / nrows b) (j / ncols b))
                       (mget b (i mod nrows b) (j mod ncols b))).
Definition eye (d : nat) : mat :=
  mbuild d d (fun i j => if Nat.eqb i j then k1 S else k0 S).

(** lines 46-47 *)
Definition is_herm_mat (m : mat) : bool :=
  forallb (fun i => forallb (fun j => kclose S (mget m i j) (kconj S (mget m j i)))
                            (seq 0 (ncols m))) (seq 0 (nrows m)).

(** The object. [lo_diag] is [_diag_mels]; [lo_conn] holds, for each term and each row,
    the pairs (mel, x') of [_mels], [_x_prime] ([_n_conns] is the number of pairs). *)
Record lop := mkLop {
  lo_ops : list mat;
  lo_act : list (list nat);
  lo_diag : list (list (K S));
  lo_conn : list (list (list (K S * list Z)));
  lo_const : K S;
  lo_nzd : bool;
  lo_herm : bool
}.

(** lines 62-70 *)
Definition has_nonzero_diagonal (o : lop) : bool :=
  existsb (existsb (kbige S)) (lo_diag o) || kbige S (lo_const o).

Definition set_nzd (o : lop) (b : bool) : lop :=
  mkLop (lo_ops o) (lo_act o) (lo_diag o) (lo_conn o) (lo_const o) b (lo_herm o).
Definition set_const (o : lop) (c : K S) : lop :=
  mkLop (lo_ops o) (lo_act o) (lo_diag o) (lo_conn o) c (lo_nzd o) (lo_herm o).

(** ** _append_matrix (lines 683-711) *)
Definition append_row (op : mat) (lss : list (list Z)) (i : nat)
  : res (list (K S * list Z)) :=
  sequence
    (map (fun j => let? x := number_to_state j lss in Ok (mget op i j, x))
       (filter (fun j => negb (Nat.eqb i j) && kbig S (mget op i j))
               (seq 0 (nrows op)))).

Definition append_matrix (op : mat) (lss : list (list Z))
  : res (list (K S) * list (list (K S * list Z))) :=
  if negb (Nat.eqb (nrows op) (ncols op)) then Err AssertionError
  else
    let? conns := sequence (map (append_row op lss) (seq 0 (nrows op))) in
    Ok (map (fun i => mget op i i) (seq 0 (nrows op)), conns).

(** ** _reorder_kronecker_product (lines 139-189); [hs] lists the local states *)
Definition reorder (hs : list (list Z)) (m : mat) (act : list nat)
  : res (mat * list nat) :=
  let sorted := sort_sites act in
  if natlist_eqb sorted act then Ok (m, act)
  else
    let dim s := Z.of_nat (length (nth s hs [])) in
    let? first := mk_Fock (Some (dim (nth 0 sorted O) - 1)%Z) 1 None 0 in
    let? hi_subspace :=
      fold_left (fun acc site =>
                   let? a := acc in
                   let? f := mk_Fock (Some (dim site - 1)%Z) 1 None 0 in
                   hmul depth f a) (tl sorted) (Ok first) in
    let ids := map (fun site => first_pos site sorted) act in
    let? v := all_states hi_subspace in
    let? n_unsorted :=
      sequence (map (fun s => states_to_numbers hi_subspace
                                (map (fun i => nth i s 0%Z) ids)) v) in
    let idx := map Z.to_nat n_unsorted in
    if forallb (fun n => Nat.ltb n (nrows m) && Nat.ltb n (ncols m)) idx
    then Ok (mbuild (length idx) (length idx)
               (fun i j => mget m (nth i idx O) (nth j idx O)), sorted)
    else Err IndexError.

(** ** _add_operator (lines 509-569) and __add_new_operator__ (lines 571-681).
    Sites are natural numbers (negative ones raise at lines 607-611). *)
Fixpoint find_support (l : list (list nat)) (act : list nat) (i : nat) : option nat :=
  match l with
  | [] => None
  | s :: l' => if natlist_eqb act s then Some i else find_support l' act (Datatypes.S i)
  end.

Definition lss_of (hs : list (list Z)) (act : list nat) : list (list Z) :=
  map (fun s => nth s hs []) act.

Definition add_block (m op : mat) : mat :=
  let dim := Nat.min (nrows op) (nrows m) in
  mbuild (nrows m) (ncols m)
    (fun i j => if Nat.ltb i dim && Nat.ltb j dim
                then kadd S (mget m i j) (mget op i j) else mget m i j).

Definition add_operator (hs : list (list Z)) (o : lop) (op : mat) (act : list nat)
  : res lop :=
  if negb (nodupb act) then Err ValueError
  else if existsb (fun s => Nat.leb (length hs) s) act then Err ValueError
  else if forallb (forallb (fun k => negb (kbige S k))) op then Ok o
  else
    let? r := reorder hs op act in
    let op := fst r in
    let act := snd r in
    let lss := lss_of hs act in
    match find_support (lo_act o) act O with
    | Some i =>
        let m := add_block (nth i (lo_ops o) []) op in
        let? dc := append_matrix m lss in
        let ops := upd (lo_ops o) i m in
        let o' := mkLop ops (lo_act o) (upd (lo_diag o) i (fst dc))
                        (upd (lo_conn o) i (snd dc)) (lo_const o) (lo_nzd o)
                        (forallb is_herm_mat ops) in
        Ok (set_nzd o' (has_nonzero_diagonal o'))
    | None =>
        if negb (Nat.eqb (nrows op) (nprod (map (@length Z) lss))) then Err RuntimeError
        else
          let? dc := append_matrix op lss in
          let ops := lo_ops o ++ [op] in
          let o' := mkLop ops (lo_act o ++ [act]) (lo_diag o ++ [fst dc])
                          (lo_conn o ++ [snd dc]) (lo_const o) (lo_nzd o)
                          (forallb is_herm_mat ops) in
          Ok (set_nzd o' (has_nonzero_diagonal o'))
    end.

(** fold of _add_operator over a list of terms *)
Definition add_operators (hs : list (list Z)) (o : lop) (terms : list (mat * list nat))
  : res lop :=
  fold_left (fun acc t => let? a := acc in add_operator hs a (fst t) (snd t))
            terms (Ok o).

(** ** Constructor (lines 198-269); terms without sites are skipped (line 268) *)
Definition mk_lop (hs : list (list Z)) (const : K S) (terms : list (mat * list nat))
  : res lop :=
  if negb (forallb is_sorted hs) then Err ValueError
  else add_operators hs (mkLop [] [] [] [] const (kbige S const) true)
         (filter (fun t => match snd t with [] => false | _ => true end) terms).

Definition terms_of (o : lop) : list (mat * list nat) := combine (lo_ops o) (lo_act o).

(** copy (lines 773-793) *)
Definition copy (hs : list (list Z)) (o : lop) : res lop :=
  mk_lop hs (lo_const o) (terms_of o).

(** __iadd__ with an operator (lines 328-347) and with a number (lines 348-358) *)
Definition iadd (hs : list (list Z)) (o other : lop) : res lop :=
  let? r := add_operators hs o (terms_of other) in
  let r := set_const r (kadd S (lo_const r) (lo_const other)) in
  Ok (set_nzd r (has_nonzero_diagonal r)).

Definition iadd_number (o : lop) (c : K S) : lop :=
  let r := set_const o (kadd S (lo_const o) c) in
  set_nzd r (has_nonzero_diagonal r).

(** __add__ (lines 320-323) *)
Definition add (hs : list (list Z)) (a b : lop) : res lop :=
  let? c := copy hs a in iadd hs c b.
Definition add_number (hs : list (list Z)) (a : lop) (x : K S) : res lop :=
  let? c := copy hs a in Ok (iadd_number c x).

(** __imul__ with a number (lines 395-414): no aliasing between the matrices *)
Definition scale_mat (c : K S) (m : mat) : mat := map (map (fun k => kmul S k c)) m.
Definition imul_number (o : lop) (c : K S) : lop :=
  let r := mkLop (map (scale_mat c) (lo_ops o)) (lo_act o)
                 (map (map (fun k => kmul S k c)) (lo_diag o))
                 (map (map (map (fun p => (kmul S (fst p) c, snd p)))) (lo_conn o))
                 (kmul S (lo_const o) c) (lo_nzd o) (lo_herm o) in
  set_nzd r (has_nonzero_diagonal r).

(** __mul__ with a number (lines 374-393) *)
Definition mul_number (hs : list (list Z)) (o : lop) (c : K S) : res lop :=
  let? r := copy hs o in Ok (imul_number r c).

(** __neg__, __sub__ (lines 362-372) *)
Definition neg (hs : list (list Z)) (o : lop) : res lop :=
  mul_number hs o (kopp S (k1 S)).
Definition sub (hs : list (list Z)) (a b : lop) : res lop :=
  let? nb := neg hs b in add hs a nb.

(** ** _multiply_operator (lines 713-771) *)

(** lines 735-745 and 747-755: identities are appended for the sites of [other] missing
    from [act], on the left when the site is smaller than all of [act0] *)
Definition expand_sites (hs : list (list Z)) (op : mat) (act0 other : list nat)
  : mat * list nat :=
  let actmin := fold_right Nat.min (nth 0 act0 O) act0 in
  fold_left
    (fun st site =>
       if nat_mem site act0 then st
       else
         let I := eye (length (nth site hs [])) in
         if Nat.ltb site actmin then (kron I (fst st), site :: snd st)
         else (kron (fst st) I, snd st ++ [site]))
    other (op, act0).

Definition multiply_one (hs : list (list Z)) (op_i : mat) (act_i : list nat)
  (op : mat) (act : list nat) : res (mat * list nat) :=
  if natlist_eqb act act_i then Ok (matmul op_i op, act_i)
  else if negb (existsb (fun s => nat_mem s act) act_i)
  then Ok (kron op_i op, act_i ++ act)
  else
    let e := expand_sites hs op act act_i in
    let e_i := expand_sites hs op_i act_i act in
    let? r := reorder hs (fst e) (snd e) in
    let? r_i := reorder hs (fst e_i) (snd e_i) in
    if natlist_eqb (snd r) (snd r_i)
    then Ok (matmul (fst r_i) (fst r), snd r_i)
    else Err ValueError.

Definition multiply_operator (hs : list (list Z)) (o : lop) (op : mat) (act : list nat)
  : res (list (mat * list nat)) :=
  sequence (map (fun t => multiply_one hs (fst t) (snd t) op act) (terms_of o)).

(** lines 441-447: all products of terms *)
Definition product_terms (hs : list (list Z)) (self other : lop)
  : res (list (mat * list nat)) :=
  let? l := sequence (map (fun t => multiply_operator hs self (fst t) (snd t))
                          (terms_of other)) in
  Ok (concat l).

(** _concrete_imatmul_ (lines 437-463) when [self] and [other] are distinct objects *)
Definition imatmul (hs : list (list Z)) (self other : lop) : res lop :=
  let? tot := product_terms hs self other in
  let? prod := mk_lop hs (k0 S) tot in
  let self_constant := lo_const self in
  let? self1 :=
    if kbig S (lo_const other) then
      let? s := iadd hs (imul_number self (lo_const other)) prod in
      Ok (set_const s (k0 S))
    else Ok prod in
  let? self2 :=
    if kbig S self_constant then
      let? m := mul_number hs other self_constant in
      iadd hs self1 m
    else Ok self1 in
  Ok (set_nzd self2 (has_nonzero_diagonal self2)).

(** ... and when they are the same object (A @= A, A *= A): the in-place updates of
    [self] also change [other]. *)
Definition imatmul_self (hs : list (list Z)) (self : lop) : res lop :=
  let? tot := product_terms hs self self in
  let? prod := mk_lop hs (k0 S) tot in
  let self_constant := lo_const self in
  if kbig S (lo_const self) then
    let? s := iadd hs (imul_number self (lo_const self)) prod in
    let self1 := set_const s (k0 S) in
    (* here [other] is [self1] *)
    let? self2 :=
      if kbig S self_constant then
        let? m := mul_number hs self1 self_constant in
        iadd hs self1 m
      else Ok self1 in
    Ok (set_nzd self2 (has_nonzero_diagonal self2))
  else
    (* [self] is rebound to [prod]; [other] still is the old object *)
    let? self2 :=
      if kbig S self_constant then
        let? m := mul_number hs self self_constant in
        iadd hs prod m
      else Ok prod in
    Ok (set_nzd self2 (has_nonzero_diagonal self2)).

(** A @ B (lines 428-435): copy, then in place *)
Definition matmul_op (hs : list (list Z)) (a b : lop) : res lop :=
  let? c := copy hs a in imatmul hs c b.

(** transpose(concrete=True) (lines 795-808), conjugate (lines 810-820) *)
Definition transpose_mat (m : mat) : mat :=
  mbuild (ncols m) (nrows m) (fun i j => mget m j i).
Definition transpose (hs : list (list Z)) (o : lop) : res lop :=
  mk_lop hs (lo_const o)
    (map (fun t => (transpose_mat (fst t), snd t)) (terms_of o)).
Definition conj_mat (m : mat) : mat := map (map (kconj S)) m.
Definition conjugate (hs : list (list Z)) (o : lop) : res lop :=
  mk_lop hs (kconj S (lo_const o))
    (map (fun t => (conj_mat (fst t), snd t)) (terms_of o)).

(** .H (_abstract_operator.py:68-75): the object itself when is_hermitian is set, else
    Adjoint(self), which stands for transpose(concrete=True).conj() (_lazy.py:108-109) *)
Definition dagger (hs : list (list Z)) (o : lop) : res lop :=
  if lo_herm o then Ok o else let? t := transpose hs o in conjugate hs t.

(** max_conn_size (lines 822-831) *)
Definition row_nnz (m : mat) (i : nat) : nat :=
  length (filter (fun j => negb (Nat.eqb i j) && kbig S (mget m i j))
                 (seq 0 (ncols m))).
Definition max_conn_size (o : lop) : nat :=
  (fold_left (fun acc m => acc + list_max (map (row_nnz m) (seq 0 (nrows m))))
     (lo_ops o) (if lo_nzd o then length (lo_ops o) else O))%nat.

(** ** _get_conn_flattened_kernel (lines 905-1008)

    [junk] and [junkx] are the uninitialised contents of np.empty. *)
Definition x_sites (x : list Z) (act : list nat) : list Z :=
  map (fun s => nth s x 0%Z) act.

(** lines 933-948: index of the row of each term *)
Definition rows_of (hs : list (list Z)) (o : lop) (x : list Z) : list nat :=
  map (fun act => xs_index (lss_of hs act) (x_sites x act)) (lo_act o).

(** lines 926-953: number of connected elements of one configuration *)
Fixpoint count_terms (conns : list (list (list (K S * list Z)))) (rows : list nat)
  : res nat :=
  match conns, rows with
  | cn :: conns', r :: rows' =>
      let? row := bget cn r in
      let? rest := count_terms conns' rows' in
      Ok (length row + rest)%nat
  | _, _ => Ok O
  end.

Definition count_conn (hs : list (list Z)) (o : lop) (x : list Z) : res nat :=
  let? n := count_terms (lo_conn o) (rows_of hs o x) in
  Ok ((if lo_nzd o then 1 else 0) + n)%nat.

(** cumulative sums: [sections] *)
Fixpoint cumsum (acc : nat) (l : list nat) : list nat :=
  match l with [] => [] | x :: l' => (acc + x)%nat :: cumsum (acc + x) l' end.

(** lines 994-995: overwrite the sites of the term *)
Definition put_sites (x : list Z) (act : list nat) (x' : list Z) : list Z :=
  fold_left (fun y p => upd y (fst p) (snd p)) (combine act x') x.

(** lines 988-996: the inner loop over the connected elements of one term *)
Fixpoint write_conns (x : list Z) (act : list nat) (row : list (K S * list Z))
  (c : nat) (mels : list (K S)) (xp : list (list Z))
  : res (nat * list (K S) * list (list Z)) :=
  match row with
  | [] => Ok (c, mels, xp)
  | (m, x') :: row' =>
      let? mels := bset mels c m in
      let? xp := bset xp c (put_sites x act x') in
      write_conns x act row' (c + 1) mels xp
  end.

(** lines 974-997: the loop over the terms *)
Fixpoint write_terms (x : list Z) (c_diag : nat) (acts : list (list nat))
  (diags : list (list (K S))) (conns : list (list (list (K S * list Z))))
  (rows : list nat) (c : nat) (mels : list (K S)) (xp : list (list Z))
  : res (nat * list (K S) * list (list Z)) :=
  match acts, diags, conns, rows with
  | act :: acts', dg :: diags', cn :: conns', r :: rows' =>
      let? d := bget dg r in
      let? old := bget mels c_diag in
      let? mels := bset mels c_diag (kadd S old d) in
      let? row := bget cn r in
      let? st := write_conns x act row c mels xp in
      write_terms x c_diag acts' diags' conns' rows' (fst (fst st)) (snd (fst st)) (snd st)
  | _, _, _, _ => Ok (c, mels, xp)
  end.

(** lines 964-1005: the loop over the batch; [pad] is [Some max_conn] *)
Fixpoint fill_rows (l : nat) (m : K S) (x : list Z) (c : nat) (mels : list (K S))
  (xp : list (list Z)) : list (K S) * list (list Z) :=
  match l with
  | O => (mels, xp)
  | Datatypes.S l' => fill_rows l' m x (c + 1) (upd mels c m) (upd xp c x)
  end.

Fixpoint write_batch (hs : list (list Z)) (o : lop) (pad : option nat)
  (xs : list (list Z)) (c : nat) (mels : list (K S)) (xp : list (list Z))
  (sections : list nat) : res (list (K S) * list (list Z) * list nat) :=
  match xs with
  | [] => Ok (mels, xp, sections)
  | x :: xs' =>
      let c_diag := c in
      let? st0 :=
        if lo_nzd o then
          let? mels := bset mels c_diag (lo_const o) in
          let? xp := bset xp c_diag x in
          Ok (c + 1, mels, xp)%nat
        else Ok (c, mels, xp) in
      let? st := write_terms x c_diag (lo_act o) (lo_diag o) (lo_conn o)
                   (rows_of hs o x) (fst (fst st0)) (snd (fst st0)) (snd st0) in
      let c := fst (fst st) in
      match pad with
      | None => write_batch hs o pad xs' c (snd (fst st)) (snd st) sections
      | Some max_conn =>
          let delta_conn := (max_conn - (c - c_diag))%nat in
          let f := fill_rows delta_conn (k0 S) x c (snd (fst st)) (snd st) in
          write_batch hs o pad xs' (c + delta_conn) (fst f) (snd f)
            (sections ++ [c + delta_conn])%nat
      end
  end.

Definition get_conn_flattened (hs : list (list Z)) (o : lop) (pad : bool)
  (junk : nat -> K S) (junkx : nat -> list Z) (xs : list (list Z))
  : res (list (K S) * list (list Z) * list nat) :=
  let? counts := sequence (map (count_conn hs o) xs) in
  let max_conn := list_max counts in
  let tot := if pad then (length xs * max_conn)%nat else list_sum counts in
  write_batch hs o (if pad then Some max_conn else None) xs 0
    (map junk (seq 0 tot)) (map junkx (seq 0 tot))
    (if pad then [] else cumsum 0 counts).

(** get_conn (_abstract_operator.py:184-203) *)
Definition get_conn (hs : list (list Z)) (o : lop) (junk : nat -> K S)
  (junkx : nat -> list Z) (x : list Z) : res (list (list Z * K S)) :=
  let? r := get_conn_flattened hs o false junk junkx [x] in
  Ok (combine (snd (fst r)) (fst (fst r))).

(** n_conn (_abstract_operator.py:205-233) *)
Fixpoint n_conn_from_sections (low : nat) (l : list nat) : list nat :=
  match l with [] => [] | s :: l' => (s - low)%nat :: n_conn_from_sections s l' end.
Definition n_conn (hs : list (list Z)) (o : lop) (junk : nat -> K S)
  (junkx : nat -> list Z) (xs : list (list Z)) : res (list nat) :=
  let? r := get_conn_flattened hs o false junk junkx xs in
  Ok (n_conn_from_sections 0 (snd r)).

(** get_conn_padded (_abstract_operator.py:132-157): [reshape(-1, n_primes)] *)
Fixpoint chunks {A} (fuel n : nat) (l : list A) : list (list A) :=
  match fuel with
  | O => []
  | Datatypes.S f => match l with [] => [] | _ => firstn n l :: chunks f n (skipn n l) end
  end.
Definition get_conn_padded (hs : list (list Z)) (o : lop) (junk : nat -> K S)
  (junkx : nat -> list Z) (xs : list (list Z))
  : res (list (list (list Z)) * list (list (K S))) :=
  let? r := get_conn_flattened hs o true junk junkx xs in
  match snd r with
  | [] => Err IndexError
  | O :: _ => Err ValueError
  | n :: _ =>
      let k := length (fst (fst r)) in
      Ok (chunks k n (snd (fst r)), chunks k n (fst (fst r)))
  end.

(** get_conn_filtered kernel (lines 1062-1130) on one configuration: only term [i] *)
Definition get_conn_filtered (hs : list (list Z)) (o : lop) (x : list Z) (i : nat)
  : res (list (list Z * K S)) :=
  if negb (Nat.ltb i (length (lo_conn o))) then Err AssertionError
  else
    let act := nth i (lo_act o) [] in
    let r := xs_index (lss_of hs act) (x_sites x act) in
    let? d := bget (nth i (lo_diag o) []) r in
    let? row := bget (nth i (lo_conn o) []) r in
    Ok ((x, kadd S (lo_const o) d)
        :: map (fun p => (put_sites x act (snd p), fst p)) row).

(** ** Evaluation of user expressions; [+] with a number is line 348, [-] is __neg__ and
    __sub__ (lines 362-372) *)
Fixpoint build (hs : list (list Z)) (e : expr S) : res lop :=
  match e with
  | New _ c terms => mk_lop hs c terms
  | Plus _ a b => let? x := build hs a in let? y := build hs b in add hs x y
  | PlusNum _ a c => let? x := build hs a in add_number hs x c
  | Times _ a c => let? x := build hs a in mul_number hs x c
  | Neg _ a => let? x := build hs a in neg hs x
  | Minus _ a b => let? x := build hs a in let? y := build hs b in sub hs x y
  | Matmul _ a b => let? x := build hs a in let? y := build hs b in matmul_op hs x y
  | Transp _ a => let? x := build hs a in transpose hs x
  | Conj _ a => let? x := build hs a in conjugate hs x
  end.

End LocalOperator.
