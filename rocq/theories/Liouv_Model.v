(** * The Lindbladian super-operator (netket/operator/_local_liouvillian.py) *)
From Coq Require Import ZArith List Bool.
From Verif Require Import Base Scalar LocalOp_Spec LocalOp_Model Special_Model.
Import ListNotations.

Section Liouv.
Variable S : scalars.
Variables im half : K S.            (* 1j and 0.5 *)
Notation K := (K S).
Notation row := (list (list Z * K)).

(** _compute_hnh (lines 110-132): the expression that builds the non-hermitian Hamiltonian;
    0.5j * L.conjugate().transpose() @ L groups from the left *)
Definition hnh_expr (H : expr S) (Ls : list (expr S)) : expr S :=
  fold_left (fun h l => Minus S h (Matmul S (Times S (Transp S (Conj S l)) (kmul S half im)) l)) Ls
            (Times S H (k1 S)).

(** *** pieces shared by both interfaces *)
Definition row_part (xc : list Z) (hr : row) : row :=
  map (fun p => (fst p ++ xc, kmul S (kopp S im) (snd p))) hr.
Definition col_part (xr : list Z) (hc : row) : row :=
  map (fun p => (xr ++ fst p, kmul S im (kconj S (snd p)))) hc.
Definition jump_part (lr lc : row) : row :=
  flat_map (fun r => map (fun c => (fst r ++ fst c, kmul S (snd r) (kconj S (snd c)))) lc) lr.

(** get_conn (lines 144-175).  [hr], [hc] and [ls] are the results of get_conn of Hnh and of the
    jump operators; [stale] is the number that an earlier call left in the first place of the
    buffer of elements.  Line 159 assigns the elements of [hc] to as many places as [hr] has:
    NumPy broadcasts a single number, and raises ValueError for other differing lengths.
    (What a single number is written to beyond its own place is overwritten or not returned.) *)
Definition liou_get_conn (xr xc : list Z) (hr hc : row) (ls : list (row * row)) (stale : K) : res row :=
  let tail := flat_map (fun l => jump_part (fst l) (snd l)) ls in
  if Nat.eqb (length hr) (length hc) then Ok (row_part xc hr ++ col_part xr hc ++ tail)
  else match hc with
       | [c] => match hr with
                | [] => Ok ((xr ++ fst c, stale) :: tail)
                | _ => Ok (row_part xc hr ++ col_part xr hc ++ tail)
                end
       | _ => Err ValueError
       end.

(** *** get_conn_flattened (lines 181-282) and its kernel (284-364) *)
Definition slice {A} (l : list A) (a b : nat) : list A := firstn (b - a) (skipn a l).

(** flattened configurations and elements of one operator, what is left of its sections, and
    the end of the previous section *)
Definition cursor : Type := (row * list nat * nat)%type.
Definition take_cur (c : cursor) : row * cursor :=
  let flat := fst (fst c) in
  let f := hd O (snd (fst c)) in
  (slice flat (snd c) f, (flat, tl (snd (fst c)), f)).

Fixpoint zero_range (mels : list K) (off n : nat) : list K :=
  match n with O => mels | Datatypes.S n => zero_range (upd mels off (k0 S)) (Datatypes.S off) n end.

(** the rows of one sample are written one block after the other; written here at once *)
Fixpoint liou_loop (pad i : nat) (samples : list (list Z * list Z)) (cr cc : cursor)
  (cls : list (cursor * cursor)) (off : nat) (mels : list K) (xs : list (list Z)) (secs : list nat)
  : res (nat * list K * list (list Z) * list nat) :=
  match samples with
  | [] => Ok (off, mels, xs, secs)
  | (xr, xc) :: samples =>
      let r := take_cur cr in
      let c := take_cur cc in
      let ls := map (fun p => (take_cur (fst p), take_cur (snd p))) cls in
      let out := row_part xc (fst r) ++ col_part xr (fst c) ++
                 flat_map (fun p => jump_part (fst (fst p)) (fst (snd p))) ls in
      let? w := put_row S out off mels xs in
      let off1 := fst (fst w) in
      let mels1 := snd (fst w) in
      let off2 := if Nat.eqb pad 0 then off1 else ((i + 1) * pad)%nat in
      let mels2 := if Nat.eqb pad 0 then mels1 else zero_range mels1 off1 (off1 - off) in
      liou_loop pad (i + 1) samples (snd r) (snd c) (map (fun p => (snd (fst p), snd (snd p))) ls)
                off2 mels2 (snd w) (secs ++ [off2])
  end.

(** lines 198-208, 238-248: np.max(np.diff(sections)), or the only section *)
Fixpoint diff (l : list nat) : list nat :=
  match l with a :: (b :: _) as t => match t with b :: _ => (b - a)%nat :: diff t | [] => [] end | _ => [] end.
Definition most (secs : list nat) : nat :=
  match secs with [a] => a | _ => fold_left Nat.max (diff secs) O end.

(** a flattened operator: elements and sections *)
Definition flat : Type := (row * list nat)%type.
Definition start (f : flat) : cursor := (fst f, snd f, O).
Definition pad_size (fr fc : flat) (fls : list (flat * flat)) : nat :=
  (fold_left Nat.add (map (fun p => (most (snd (fst p)) * most (snd (snd p)))%nat) fls) O +
   most (snd fr) + most (snd fc))%nat.

(** [cap] is max(length of the cached buffers, max_conn_size * batch_size) *)
Definition liou_flattened (size : nat) (pad : bool) (samples : list (list Z * list Z))
  (fr fc : flat) (fls : list (flat * flat)) (cap : nat) : res (list K * list (list Z) * list nat) :=
  let p := if pad then pad_size fr fc fls else O in
  let? r := liou_loop p 0 samples (start fr) (start fc) (map (fun q => (start (fst q), start (snd q))) fls) 0
              (repeat (k0 S) cap) (repeat (repeat 0%Z size) cap) [] in
  let off := fst (fst (fst r)) in
  Ok (firstn off (snd (fst (fst r))), firstn off (snd (fst r)), snd r).
End Liouv.
