(** * Sums of Pauli strings (netket/operator/_pauli_strings.py) *)
From Coq Require Import ZArith List Bool.
From Verif Require Import Base Scalar LocalOp_Model Special_Model.
Import ListNotations.

(** characters of an operator string; [Other] is any character but I, X, Y and Z *)
Inductive letter := LI | LX | LY | LZ | Other.
Definition letter_eqb (a b : letter) : bool :=
  match a, b with
  | LI, LI | LX, LX | LY, LY | LZ, LZ | Other, Other => true
  | _, _ => false
  end.

Section Pauli.
Variable S : scalars.
Variable im : K S.                  (* the imaginary unit *)

Fixpoint kpow (a : K S) (n : nat) : K S :=
  match n with O => k1 S | Datatypes.S n => kmul S a (kpow a n) end.

(** lines 84-85 *)
Definition find_char (s : list letter) (ch : letter) : list nat :=
  map fst (filter (fun p => letter_eqb (snd p) ch) (combine (seq 0 (length s)) s)).

(** lines 87-93: the dictionary [acting], an association list in insertion order *)
Definition entryt : Type := (K S * list nat)%type.
Fixpoint append (acting : list (list nat * list entryt)) (key : list nat) (v : entryt)
  : list (list nat * list entryt) :=
  match acting with
  | [] => [(key, [v])]
  | (k, vs) :: rest =>
      if natlist_eqb k key then (k, vs ++ [v]) :: rest else (k, vs) :: append rest key v
  end.

(** lines 97-117: key and entry of one string *)
Definition string_entry (op : list letter) (w : K S) : list nat * entryt :=
  let x_ops := find_char op LX in
  let y_ops := find_char op LY in
  let z_ops := find_char op LZ in
  (x_ops ++ y_ops,
   (match y_ops with [] => w | _ => kmul S w (kpow (kopp S im) (length y_ops)) end,
    y_ops ++ z_ops)).

(** constructor (lines 28-154).  The fixed-size arrays that hold the dictionary are modelled
    by the dictionary itself; the dtype is complex. *)
Record pauli := mkPauli { ps_n : nat; ps_acting : list (list nat * list entryt); ps_herm : bool }.
Definition mk_pauli (operators : list (list letter)) (weights : list (K S)) : res pauli :=
  match operators with
  | [] => Err ValueError
  | op0 :: _ =>
      if negb (Nat.eqb (length weights) (length operators)) then Err ValueError
      else if negb (forallb (fun op => Nat.eqb (length op) (length op0)) operators) then Err ValueError
      else if negb (forallb (fun op => match op with [] => false | _ => true end &&
                                       forallb (fun c => negb (letter_eqb c Other)) op) operators)
      then Err ValueError
      else Ok (mkPauli (length op0)
                 (fold_left (fun acting p =>
                    let kv := string_entry (fst p) (snd p) in append acting (fst kv) (snd kv))
                    (combine operators weights) [])
                 (* line 79: all imaginary parts close to 0 *)
                 (forallb (fun w => kclose S w (kconj S w)) weights))
  end.

Definition pauli_max_conn (o : pauli) : nat := length (ps_acting o).

(** _flattened_kernel (lines 174-226): the elements of one sample; [kbig] is the test
    abs(mel) > cutoff *)
Definition pauli_mel (x : list Z) (vs : list entryt) : K S :=
  fold_left (fun mel v =>
    let n_z := length (filter (fun i => Z.eqb (nth i x 0%Z) 1) (snd v)) in
    kadd S mel (kmul S (fst v) (kpow (kopp S (k1 S)) n_z))) vs (k0 S).
Definition flip_sites (sites : list nat) (x : list Z) : list Z :=
  fold_left (fun x s => upd x s (1 - nth s x 0)%Z) sites x.
Definition pauli_row (o : pauli) (x : list Z) : list (list Z * K S) :=
  flat_map (fun kv => let mel := pauli_mel x (snd kv) in
                      if kbig S mel then [(flip_sites (fst kv) x, mel)] else [])
           (ps_acting o).

Definition pauli_flattened (o : pauli) (pad : bool) (xs : list (list Z))
  : res (list (K S) * list (list Z) * list nat) :=
  let tot := (length xs * pauli_max_conn o)%nat in
  let? r := put_batch S (pauli_row o) (if pad then Some (pauli_max_conn o) else None) 0 xs 0
              (repeat (k0 S) tot) (repeat (repeat 0%Z (ps_n o)) tot) [] in
  let c := fst (fst (fst r)) in
  Ok (firstn c (snd (fst (fst r))), firstn c (snd (fst r)), snd r).
End Pauli.
