(** * Point groups (netket/utils/group/_point_group.py)

    Matrices and vectors have exact rational entries.  [np.linalg.inv] of a matrix is an
    argument ([minv]); names of the elements are not modelled. *)
From Coq Require Import List Arith Bool ZArith QArith Qcanon Qabs.
From Verif Require Import Base Rings FloatCmp_Model LatGen_Model.
Import ListNotations.

Definition qC : cring := CRing Qc 0%Qc 1%Qc Qcplus Qcmult Qcminus Qcopp (fun x => x).
Notation qs := (fsum qC).
Definition mat := nat -> nat -> Qc.
Definition vec := nat -> Qc.
Definition eye : mat := fun i j => if Nat.eqb i j then 1%Qc else 0%Qc.
Definition tr (A : mat) : mat := fun i j => A j i.
Definition mmul (n : nat) (A B : mat) : mat := fun i j => qs n (fun k => A i k * B k j)%Qc.
Definition mvec (n : nat) (A : mat) (x : vec) : vec := fun i => qs n (fun k => A i k * x k)%Qc.

(** np.isclose(a, b) with the default tolerances *)
Definition isclose_default (a b : Qc) : bool :=
  Qle_bool (Qabs (this a - this b)) ((1 # 100000000) + (1 # 100000) * Qabs (this b)).
Definition allclose (n m : nat) (A B : mat) : bool :=
  forallb (fun i => forallb (fun j => isclose_default (A i j) (B i j)) (seq 0 m)) (seq 0 n).

(** ** 38-158: PGSymmetry, the map x -> W x + w *)
Record pgs := PGS { p_n : nat; p_W : mat; p_w : vec }.
(** 57-69; [w] with its size *)
Definition pg_symmetry (rows cols : nat) (W : mat) (w : option (nat * vec)) : res pgs :=
  if negb (Nat.eqb rows cols) then Err ValueError
  else if negb (allclose rows rows (mmul rows (tr W) W) eye) then Err ValueError
  else match w with
       | None => Ok (PGS rows W (fun _ => 0%Qc))
       | Some (k, v) => if Nat.eqb k rows then Ok (PGS rows W v) else Err ValueError
       end.
(** 151-153 *)
Definition act (p : pgs) (x : vec) : vec := fun i => (mvec (p_n p) (p_W p) x i + p_w p i)%Qc.
(** 106-111 *)
Definition preimage (p : pgs) (x : vec) : vec := fun i => qs (p_n p) (fun k => (x k - p_w p k) * p_W p k i)%Qc.
(** 113-118 *)
Definition k_action (p : pgs) (x : vec) : vec := fun i => qs (p_n p) (fun k => x k * tr (p_W p) k i)%Qc.
(** 156-158 *)
Definition pg_product (p q : pgs) : res pgs :=
  if negb (Nat.eqb (p_n p) (p_n q)) then Err ValueError
  else pg_symmetry (p_n p) (p_n p) (mmul (p_n p) (p_W p) (p_W q))
         (Some (p_n p, fun i => mvec (p_n p) (p_W p) (p_w q) i + p_w p i)%Qc).
(** 131-136 *)
Definition change_origin (p : pgs) (o : vec) : res pgs :=
  pg_symmetry (p_n p) (p_n p) (p_W p) (Some (p_n p, mvec (p_n p) (fun i j => eye i j - p_W p i j)%Qc o)).
(** np.linalg.det, by expansion along the first row *)
Fixpoint det (n : nat) (A : mat) : Qc :=
  match n with
  | O => 1
  | S m => qs n (fun j => (if Nat.even j then A 0%nat j else - A 0%nat j) *
                   det m (fun r c => A (S r) (if Nat.ltb c j then c else S c)))
  end%Qc.
(** 97-99 *)
Definition is_proper (p : pgs) : bool := isclose_default (det (p_n p) (p_W p)) 1.
(** 102-104 *)
Definition pg_symmorphic (p : pgs) : bool := forallb (fun i => isclose_default (p_w p i) 0) (seq 0 (p_n p)).

(** The matrix [[W,w],[0,1]] *)
Definition affine (n : nat) (W : mat) (w : vec) : mat := fun i j =>
  if Nat.ltb i n then (if Nat.ltb j n then W i j else w i) else (if Nat.eqb j n then 1%Qc else 0%Qc).
Definition rows_of (n m : nat) (f : Qc -> Z) (A : mat) : list Z :=
  flat_map (fun i => map (fun j => f (A i j)) (seq 0 m)) (seq 0 n).
Definition bin (x : Qc) : Z := comparable (this x).
(** 120-129: equality and hash *)
Definition pg_key (p : pgs) : nat * list Z :=
  (p_n p, rows_of (S (p_n p)) (S (p_n p)) bin (affine (p_n p) (p_W p) (p_w p))).
Definition pg_eqb (p q : pgs) : bool :=
  Nat.eqb (fst (pg_key p)) (fst (pg_key q)) && zlist_eqb (snd (pg_key p)) (snd (pg_key q)).

(** ** Elements: Identity() and PGSymmetry, _semigroup.py 60-79 *)
Inductive elem := EId | ESym (p : pgs).
Definition e_mul (a b : elem) : res elem :=
  match a, b with
  | EId, b => Ok b
  | a, EId => Ok a
  | ESym p, ESym q => let? r := pg_product p q in Ok (ESym r)
  end.
Definition e_act (a : elem) (x : vec) : vec := match a with EId => x | ESym p => act p x end.
Definition e_eqb (a b : elem) : bool :=
  match a, b with EId, EId => true | ESym p, ESym q => pg_eqb p q | _, _ => false end.

(** ** 359-578: PointGroup; the unit cell (lattice vectors are its rows) with its inverse *)
Record point_group := PG { g_elems : list elem; g_ndim : nat; g_cell : option (mat * mat) }.
(** 405-433 *)
Definition e_matrix (a : elem) : mat := match a with EId => eye | ESym p => p_W p end.
Definition e_translation (a : elem) : vec := match a with EId => fun _ => 0%Qc | ESym p => p_w p end.
(** 435-449 *)
Definition canonical (G : point_group) (W : mat) (w : vec) : list Z :=
  let n := g_ndim G in
  match g_cell G with
  | None => rows_of (S n) (S n) bin (affine n W w)
  | Some (_, inv) =>
      rows_of n n bin W ++
      map (fun j => comparable_periodic true (this (qs n (fun k => w k * inv k j)%Qc))) (seq 0 n)
  end.
Definition e_canonical (G : point_group) (a : elem) : list Z := canonical G (e_matrix a) (e_translation a).
(** _group.py 68-75 *)
Definition pg_lookup (G : point_group) (key : list Z) : option nat := last_pos key (map (e_canonical G) (g_elems G)).

Fixpoint collect {A} (l : list (option A)) : option (list A) :=
  match l with
  | [] => Some []
  | None :: _ => None
  | Some x :: l => match collect l with Some r => Some (x :: r) | None => None end
  end.

Section Tables.
  Variable minv : nat -> mat -> mat.
  (** the inverse of the affine map: W^-1 x - W^-1 w *)
  Definition inv_W (G : point_group) (a : elem) : mat := minv (g_ndim G) (e_matrix a).
  Definition inv_w (G : point_group) (a : elem) : vec := fun i => (- mvec (g_ndim G) (inv_W G a) (e_translation a) i)%Qc.
  (** 526-545 *)
  Definition pg_inverse (G : point_group) : res (list nat) :=
    match collect (map (fun a => pg_lookup G (canonical G (inv_W G a) (inv_w G a))) (g_elems G)) with
    | Some t => Ok t
    | None => Err RuntimeError
    end.
  (** 547-570: row i of the result is the row of the inverse of i *)
  Definition prod_W (G : point_group) (a b : elem) : mat := mmul (g_ndim G) (e_matrix a) (e_matrix b).
  Definition prod_w (G : point_group) (a b : elem) : vec :=
    fun i => (mvec (g_ndim G) (e_matrix a) (e_translation b) i + e_translation a i)%Qc.
  Definition pg_product_table (G : point_group) : res (list (list nat)) :=
    match collect (map (fun a => collect (map (fun b => pg_lookup G (canonical G (prod_W G a b) (prod_w G a b))) (g_elems G))) (g_elems G)) with
    | None => Err RuntimeError
    | Some T => let? t := pg_inverse G in Ok (map (fun i => nth i T []) t)
    end.
End Tables.

(** 392-403: equality of groups; the elements of [other] are looked up by the index of those of
    [self].  np.allclose(None, None) raises TypeError. *)
Definition bc (n : nat) (A : mat) : mat := fun i j => if Nat.eqb n 1 then A 0%nat 0%nat else A i j.
Fixpoint all_equal (l l' : list elem) : res bool :=
  match l, l' with
  | [], _ => Ok true
  | _ :: _, [] => Err IndexError
  | a :: l, b :: l' => if e_eqb a b then all_equal l l' else Ok false
  end.
Definition pg_group_eq (G H : point_group) : res bool :=
  match g_cell G, g_cell H with
  | None, None => Err TypeError
  | Some (U, _), Some (V, _) =>
      let n := g_ndim G in let m := g_ndim H in
      if negb (Nat.eqb n m) && negb (Nat.eqb n 1) && negb (Nat.eqb m 1) then Err ValueError
      else if negb (allclose (Nat.max n m) (Nat.max n m) (bc n U) (bc m V)) then Ok false
      else all_equal (g_elems G) (g_elems H)
  | _, _ => Ok false
  end.

(** 472-496 and _group.py 77-107: remove_duplicates: the first of each canonical form, in the order of the group *)
Definition first_index (G : point_group) : list nat :=
  let rows := map (e_canonical G) (g_elems G) in
  filter (fun i => existsb (Nat.eqb i) (map (fun u => zrow_pos u rows) (zunique rows))) (seq 0 (length rows)).
Definition pg_remove_duplicates (G : point_group) : point_group :=
  PG (map (fun i => nth i (g_elems G) EId) (first_index G)) (g_ndim G) (g_cell G).

(** 498-510 *)
Definition rotation_group (G : point_group) : point_group :=
  PG (filter (fun a => match a with EId => true | ESym p => is_proper p end) (g_elems G)) (g_ndim G) (g_cell G).
(** 512-524 *)
Fixpoint mapM {A B} (f : A -> res B) (l : list A) : res (list B) :=
  match l with [] => Ok [] | x :: l => let? y := f x in let? r := mapM f l in Ok (y :: r) end.
Definition pg_change_origin (G : point_group) (o : vec) : res point_group :=
  let? l := mapM (fun a => match a with EId => Ok EId | ESym p => let? q := change_origin p o in Ok (ESym q) end) (g_elems G) in
  Ok (PG l (g_ndim G) (g_cell G)).

(** 585-601: product of groups *)
Definition pg_group_product (G H : point_group) : res point_group :=
  if negb (Nat.eqb (g_ndim G) (g_ndim H)) then Err ValueError
  else
    let? cell := match g_cell G, g_cell H with
                 | None, c => Ok c
                 | Some c, None => Ok (Some c)
                 | Some (U, Ui), Some (V, _) => if allclose (g_ndim G) (g_ndim G) U V then Ok (Some (U, Ui)) else Err ValueError
                 end in
    let? l := mapM (fun ab => e_mul (fst ab) (snd ab)) (list_prod (g_elems G) (g_elems H)) in
    Ok (PG l (g_ndim G) cell).
