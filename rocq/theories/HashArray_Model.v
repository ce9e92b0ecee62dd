(** Model of HashableArray (netket/utils/array.py 21-55). *)
From Coq Require Import List Arith Bool ZArith.
From Verif Require Import Base.
Import ListNotations.
Open Scope nat_scope.

(** An n-dimensional integer array as nested lists (a scalar is 0-dimensional). *)
Inductive nd := Sc (z : Z) | Ar (l : list nd).

(** The item type, as far as tobytes() sees it: the number of bytes of one integer. *)
Inductive dtype := I32 | I64.

(** A numpy array: item type, shape and entries.  The shape is kept separately because
    nested lists do not determine the shape of arrays without entries. *)
Record arr := MkArr { dt : dtype; shp : list nat; val : nd }.

(** Entries have the shape [s]. *)
Fixpoint has_shape (s : list nat) (a : nd) : Prop :=
  match s, a with
  | [], Sc _ => True
  | n :: s', Ar l => length l = n /\ (fix all l := match l with
                                                   | [] => True
                                                   | x :: l' => has_shape s' x /\ all l'
                                                   end) l
  | _, _ => False
  end.

(** numpy broadcasting of shapes, right aligned: reversed shapes are compared. *)
Fixpoint bc_rev (s t : list nat) : bool :=
  match s, t with
  | [], _ | _, [] => true
  | a :: s', b :: t' => ((a =? b) || (a =? 1) || (b =? 1)) && bc_rev s' t'
  end.
Definition broadcastable (s t : list nat) : bool := bc_rev (rev s) (rev t).

(** np.all(a == b) for broadcastable shapes: [s], [t] are the shapes, [a], [b] entries.
    The leading axis of the array with more axes is iterated; for equal numbers of axes
    the leading axes are paired, an axis of length one being repeated. *)
Fixpoint all_eq (f : nat) (s t : list nat) (a b : nd) : bool :=
  match f with
  | O => true
  | S f' =>
    match a, b with
    | Sc x, Sc y => Z.eqb x y
    | Ar la, Ar lb =>
        if length t <? length s then forallb (fun x => all_eq f' (tl s) t x b) la
        else if length s <? length t then forallb (fun y => all_eq f' s (tl t) a y) lb
        else if Nat.eqb (length la) (length lb)
             then forallb (fun xy => all_eq f' (tl s) (tl t) (fst xy) (snd xy))
                    (combine la lb)
        else match la, lb with
             | [x], _ => forallb (fun y => all_eq f' (tl s) (tl t) x y) lb
             | _, [y] => forallb (fun x => all_eq f' (tl s) (tl t) x y) la
             | _, _ => false
             end
    | Ar la, Sc _ => forallb (fun x => all_eq f' (tl s) t x b) la
    | Sc _, Ar lb => forallb (fun y => all_eq f' s (tl t) a y) lb
    end
  end.

(** array.py 45-46 __eq__: np.all(self.wrapped == other.wrapped); arrays whose shapes do
    not broadcast compare as the scalar False. *)
Definition harr_eq (a b : arr) : bool :=
  broadcastable (shp a) (shp b)
  && all_eq (S (length (shp a) + length (shp b))) (shp a) (shp b) (val a) (val b).

(** The entries in memory order (C order). *)
Fixpoint flat (a : nd) : list Z :=
  match a with Sc z => [z] | Ar l => flat_map flat l end.

(** tobytes(): the little-endian bytes of the entries; an entry of w bytes is the list of
    its bytes, least significant first. *)
Fixpoint le_bytes (w : nat) (z : Z) : list Z :=
  match w with O => [] | S w' => (z mod 256)%Z :: le_bytes w' (z / 256)%Z end.
Definition width (d : dtype) : nat := match d with I32 => 4 | I64 => 8 end.
Definition tobytes (a : arr) : list Z := flat_map (le_bytes (width (dt a))) (flat (val a)).

(** array.py 38-39 __hash__: hash(tobytes()), for the interpreter's hash function of byte
    strings, which is a parameter. *)
Definition harr_hash {H} (hash_bytes : list Z -> H) (a : arr) : H := hash_bytes (tobytes a).
