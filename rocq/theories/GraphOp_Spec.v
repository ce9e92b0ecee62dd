(** * Graph operators, independently of the code *)
From Coq Require Import List ZArith Bool Arith.
From Verif Require Import Scalar LocalOp_Spec LocalOp_Model.
Import ListNotations.
Open Scope nat_scope.

(** ** What an edge list says: unordered pairs of nodes with a colour *)
Definition edge_nodes (e : list Z) : Z * Z := (nth 0 e 0%Z, nth 1 e 0%Z).
Definition edge_color (e : list Z) : Z := nth 2 e 0%Z.
Definition same_pair (a b : nat * nat) : Prop :=
  a = b \/ (fst a = snd b /\ snd a = fst b).

(** all edges are pairs, or all are pairs with a colour *)
Definition lens (es : list (list Z)) : Prop :=
  Forall (fun e => length e = 2) es \/ Forall (fun e => length e = 3) es.
Definition no_loops (es : list (list Z)) : Prop :=
  Forall (fun e => fst (edge_nodes e) <> snd (edge_nodes e)) es.

Section Spec.
Variable S : scalars.
Notation typed := (bool * mat S)%type.

(** dtype: complex, or all matrices real, or not given and all matrices complex *)
Definition kinds_ok (dtype : option bool) (ops : list typed) : Prop :=
  dtype = Some true \/ Forall (fun t => fst t = false) ops \/
  (dtype = None /\ Forall (fun t => fst t = true) ops).

(** one bond operator without colours, or as many colours as bond operators *)
Definition colors_ok (bond_ops : list typed) (colors : list Z) : Prop :=
  (colors = [] /\ length bond_ops = 1) \/ (colors <> [] /\ length bond_ops = length colors).

(** a bond operator and the colour of the edges it is for *)
Definition bond_spec (bond_ops : list typed) (colors : list Z)
  : list (mat S * option Z) :=
  match colors with
  | [] => map (fun op => (snd op, None)) bond_ops
  | _ => map (fun oc => (snd (fst oc), Some (snd oc))) (combine bond_ops colors)
  end.

(** all matrices have the size of the sites they act on *)
Definition sizes_ok (hs : list (list Z)) (es : list (nat * nat * Z))
  (site_ops : list (mat S)) (bonds : list (mat S * option Z)) : Prop :=
  (forall m i, In m site_ops -> i < length hs -> square S m (length (nth i hs []))) /\
  (forall m oc e, In (m, oc) bonds -> In e es ->
     match oc with None => True | Some c => c = snd e end ->
     square S m (length (nth (fst (fst e)) hs []) * length (nth (snd (fst e)) hs []))).

(** sum over the listed operators of the element of each on the listed sites *)
Definition terms_element (hs : list (list Z)) (ts : list (list (list (K S)) * list nat))
  (x y : list Z) : K S := sum S (map (fun t => term_element S hs (fst t) (snd t) x y) ts).

(** one operator per site, and one per edge whose colour it is for; without colours the
    bond operators act on all edges *)
Definition graph_element (hs : list (list Z)) (site_ops : list (list (list (K S))))
  (bond_ops : list (list (list (K S)) * option Z)) (es : list (nat * nat * Z)) (x y : list Z) : K S :=
  kadd S
    (sum S (map (fun i => sum S (map (fun m => term_element S hs m [i] x y) site_ops))
                (seq 0 (length hs))))
    (sum S (map (fun e => sum S (map (fun oc =>
        if match snd oc with None => true | Some c => (c =? snd e)%Z end
        then term_element S hs (fst oc) [fst (fst e); snd (fst e)] x y else k0 S) bond_ops)) es)).

(** exchange of the values of two sites *)
Definition swapped (x : list Z) (u v : nat) : list Z :=
  map (fun i => nth (if i =? u then v else if i =? v then u else i) x 0%Z) (seq 0 (length x)).

(** one term of the Heisenberg Hamiltonian: sz sz = +1 for equal spins, -1 for different
    ones; sx sx + sy sy exchanges different spins with weight 2 *)
Definition heis_bond (flip : K S -> K S) (x y : list Z) (e : nat * nat) : K S :=
  let equal := (nth (fst e) x 0 =? nth (snd e) x 0)%Z in
  kadd S (if list_eq_dec Z.eq_dec x y then (if equal then k1 S else kopp S (k1 S)) else k0 S)
         (if equal then k0 S
          else if list_eq_dec Z.eq_dec (swapped x (fst e) (snd e)) y
               then flip (kadd S (k1 S) (k1 S)) else k0 S).

Definition heis_element (flip : K S -> K S) (J : K S) (es : list (nat * nat)) (x y : list Z) : K S :=
  kmul S J (sum S (map (heis_bond flip x y) es)).

(** product over the sites of one sublattice of the sign of the spin *)
Definition marshall (a : Z) (c : nat -> bool) (x : list Z) : K S :=
  fold_right (kmul S) (k1 S)
    (map (fun i => if c i && (nth i x 0 =? a)%Z then kopp S (k1 S) else k1 S) (seq 0 (length x))).
End Spec.

Definition bipartition (c : nat -> bool) (es : list (nat * nat)) : Prop :=
  forall e, In e es -> c (fst e) <> c (snd e).
