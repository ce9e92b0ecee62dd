(** * What a local operator is, independently of the code

    [hs] gives, for every site, the increasing list of its local states. *)
From Coq Require Import ZArith List Bool Sorting.Sorted.
From Verif Require Import Base Scalar.
Import ListNotations.

Definition sorted_space (hs : list (list Z)) : Prop :=
  Forall (fun ls => StronglySorted Z.lt ls) hs.

(** a configuration takes a local state at every site *)
Definition configuration (hs : list (list Z)) (x : list Z) : Prop :=
  Forall2 (fun v ls => In v ls) x hs.

(** position of [v] in the list of local states *)
Fixpoint pos_in (ls : list Z) (v : Z) : nat :=
  match ls with [] => O | a :: t => if Z.eqb a v then O else S (pos_in t v) end.

(** row/column number of the local matrix: the listed sites are the digits, the first
    one most significant *)
Definition loc_index (hs : list (list Z)) (act : list nat) (x : list Z) : nat :=
  fold_left
    (fun acc s => acc * length (nth s hs []) + pos_in (nth s hs []) (nth s x 0%Z))%nat
    act O.

Definition same_elsewhere (act : list nat) (x y : list Z) : bool :=
  forallb (fun i => existsb (Nat.eqb i) act || Z.eqb (nth i x 0%Z) (nth i y 0%Z))
          (seq 0 (length x)).

(** all combinations of local states *)
Definition all_configs (hs : list (list Z)) : list (list Z) :=
  fold_right (fun ls acc => flat_map (fun v => map (cons v) acc) ls) [[]] hs.

Section Spec.
Variable S : scalars.

Definition entry (m : list (list (K S))) (i j : nat) : K S := nth j (nth i m []) (k0 S).
Definition sum (l : list (K S)) : K S := fold_right (kadd S) (k0 S) l.

(** <x| m_act |y>: the matrix [m] on the sites [act], the identity elsewhere *)
Definition term_element (hs : list (list Z)) (m : list (list (K S))) (act : list nat)
  (x y : list Z) : K S :=
  if same_elsewhere act x y then entry m (loc_index hs act x) (loc_index hs act y)
  else k0 S.

(** <x| c + sum of the terms |y> *)
Definition element (hs : list (list Z)) (c : K S)
  (terms : list (list (list (K S)) * list nat)) (x y : list Z) : K S :=
  kadd S (if zlist_eqb x y then c else k0 S)
         (sum (map (fun t => term_element hs (fst t) (snd t) x y) terms)).

(** total weight given to [y] by a list of weighted configurations *)
Definition weight (l : list (list Z * K S)) (y : list Z) : K S :=
  sum (map (fun p => if zlist_eqb (fst p) y then snd p else k0 S) l).

(** number of local configurations of the listed sites *)
Definition local_dim (hs : list (list Z)) (act : list nat) : nat :=
  fold_right Nat.mul 1%nat (map (fun s => length (nth s hs [])) act).

Definition square (m : list (list (K S))) (d : nat) : Prop :=
  length m = d /\ Forall (fun r => length r = d) m.

Definition increasing_sites (act : list nat) : Prop := StronglySorted lt act.

(** a matrix of the right size on distinct existing sites *)
Definition valid_term (hs : list (list Z)) (t : list (list (K S)) * list nat) : Prop :=
  snd t <> [] /\ NoDup (snd t) /\ (forall s, In s (snd t) -> s < length hs)%nat /\
  square (fst t) (local_dim hs (snd t)).

(** the sites are listed in increasing order, or all have as many local states *)
Definition ordered_or_uniform (hs : list (list Z)) (act : list nat) : Prop :=
  increasing_sites act \/
  (exists d, (0 < d)%nat /\ (forall s, In s act -> length (nth s hs []) = d) /\
             (Z.of_nat d ^ Z.of_nat (length act) <= 2 ^ 31 - 1)%Z).


(** *** The cut-off: off-diagonal entries not larger than it are dropped, and so are
    matrices without any entry reaching it *)
Definition cut (m : list (list (K S))) : list (list (K S)) :=
  map (fun i => map (fun j => if Nat.eqb i j || kbig S (entry m i j) then entry m i j else k0 S)
                    (seq 0 (length m))) (seq 0 (length m)).
Definition significant (t : list (list (K S)) * list nat) : bool :=
  existsb (existsb (kbige S)) (fst t).
Definition cut_terms (terms : list (list (list (K S)) * list nat)) :=
  map (fun t => (cut (fst t), snd t)) (filter significant terms).

(** the constant or a diagonal entry reaches the cut-off, or all are zero *)
Definition clear_diagonal (c : K S) (terms : list (list (list (K S)) * list nat)) : Prop :=
  (kbige S c = true \/
   exists t i, In t terms /\ (i < length (fst t))%nat /\ kbige S (entry (fst t) i i) = true) \/
  (c = k0 S /\ forall t i, In t terms -> entry (fst t) i i = k0 S).

(** ** Expressions: how users build operators *)
Inductive expr :=
| New (c : K S) (terms : list (list (list (K S)) * list nat))  (* LocalOperator(hi, ...) *)
| Plus (a b : expr)                                            (* a + b *)
| PlusNum (a : expr) (c : K S)                                 (* a + c *)
| Times (a : expr) (c : K S)                                   (* c * a *)
| Neg (a : expr)                                               (* -a *)
| Minus (a b : expr)                                           (* a - b *)
| Matmul (a b : expr)                                          (* a @ b *)
| Transp (a : expr)                            (* a.transpose(concrete=True) *)
| Conj (a : expr).                                             (* a.conjugate() *)

(** the matrix that an expression stands for *)
Fixpoint denote (hs : list (list Z)) (e : expr) (x y : list Z) : K S :=
  match e with
  | New c terms => element hs c terms x y
  | Plus a b => kadd S (denote hs a x y) (denote hs b x y)
  | PlusNum a c => kadd S (denote hs a x y) (if zlist_eqb x y then c else k0 S)
  | Times a c => kmul S (denote hs a x y) c
  | Neg a => kopp S (denote hs a x y)
  | Minus a b => ksub S (denote hs a x y) (denote hs b x y)
  | Matmul a b =>
      sum (map (fun z => kmul S (denote hs a x z) (denote hs b z y)) (all_configs hs))
  | Transp a => denote hs a y x
  | Conj a => kconj S (denote hs a x y)
  end.

(** all matrices have the right size and sites in an acceptable order *)
Fixpoint valid_expr (hs : list (list Z)) (e : expr) : Prop :=
  match e with
  | New _ terms =>
      Forall (fun t => valid_term hs t /\ ordered_or_uniform hs (snd t)) terms
  | Plus a b | Minus a b | Matmul a b => valid_expr hs a /\ valid_expr hs b
  | PlusNum a _ | Times a _ | Neg a | Transp a | Conj a => valid_expr hs a
  end.

Fixpoint no_product (e : expr) : Prop :=
  match e with
  | New _ _ => True
  | Plus a b | Minus a b => no_product a /\ no_product b
  | PlusNum a _ | Times a _ | Neg a | Transp a | Conj a => no_product a
  | Matmul _ _ => False
  end.

(** no operation that rescales stored matrix elements *)
Fixpoint no_rescaling (e : expr) : Prop :=
  match e with
  | New _ _ => True
  | Plus a b => no_rescaling a /\ no_rescaling b
  | PlusNum a _ | Transp a | Conj a => no_rescaling a
  | _ => False
  end.

(** constants and scalar factors equal to their own conjugate *)
Fixpoint real_scalars (e : expr) : Prop :=
  match e with
  | New c _ => kconj S c = c
  | Plus a b | Minus a b | Matmul a b => real_scalars a /\ real_scalars b
  | PlusNum a c | Times a c => real_scalars a /\ kconj S c = c
  | Neg a | Transp a | Conj a => real_scalars a
  end.

(** the local dimension is the same everywhere *)
Definition uniform_space (hs : list (list Z)) (d : nat) : Prop :=
  (0 < d)%nat /\ forall s, (s < length hs)%nat -> length (nth s hs []) = d.

(** The list of weighted configurations of a row: only configurations are listed and the
    total weight of each one is the matrix element. *)
Definition is_row (hs : list (list Z)) (f : list Z -> K S) (l : list (list Z * K S)) : Prop :=
  (forall p, In p l -> configuration hs (fst p)) /\
  forall y, configuration hs y -> weight l y = f y.

(** What get_conn may return: the row, or an out-of-bounds access, and that only if the
    row is zero (see C20). *)
Definition row_or_fault (hs : list (list Z)) (f : list Z -> K S)
  (r : res (list (list Z * K S))) : Prop :=
  match r with
  | Ok l => is_row hs f l
  | Err e => e = Fault /\ forall y, configuration hs y -> f y = k0 S
  end.

(** some diagonal matrix element is not zero, or the row of the last sample is not zero *)
Definition visible (hs : list (list Z)) (f : list Z -> list Z -> K S) (xs : list (list Z)) : Prop :=
  (exists x, configuration hs x /\ f x x <> k0 S) \/
  (xs <> [] -> exists y, configuration hs y /\ f (last xs []) y <> k0 S).

(** [sections]: positions where the elements of each sample end *)
Fixpoint ends (start : nat) (lengths : list nat) : list nat :=
  match lengths with [] => [] | n :: l => (start + n)%nat :: ends (start + n) l end.

End Spec.
