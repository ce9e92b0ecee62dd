(** C86: point groups. *)
From Coq Require Import List Arith Bool ZArith QArith Qcanon Qabs Sorted.
From Verif Require Import Base Rings FloatCmp_Model FloatCmp_Spec LatGen_Model
  PointGp_Model PointGp_Spec PointGp_Lin PointGp_Proofs PointGp_Tables PointGp_Group PointGp_Ex.
Import ListNotations.
Open Scope nat_scope.

(** Construction stores the matrix and the translation, or refuses what is not a square (nearly) orthogonal matrix with a translation of its size. *)
Theorem C86_construct : forall rows cols W w,
  match pg_symmetry rows cols W w with
  | Ok p => p_n p = rows /\ p_W p = W /\ rows = cols /\ nearly_orthogonal rows W /\
            match w with None => p_w p = (fun _ => 0%Qc) | Some (k, v) => k = rows /\ p_w p = v end
  | Err e => e = ValueError /\ (rows <> cols \/ ~ nearly_orthogonal rows W \/ match w with None => False | Some (k, _) => k <> rows end)
  end.
Proof. exact construct_spec. Qed.
Print Assumptions C86_construct.
Example C86_construct_ex : exists e, pg_symmetry 2 3 eye None = Err e.
Proof. eexists. reflexivity. Qed.

(** The product of two symmetries exists and acts as the composition. *)
Theorem C86_product : forall n a b, good n a -> good n b -> exists c, e_mul a b = Ok c /\ good n c /\ forall x, veq n (e_act c x) (e_act a (e_act b x)).
Proof. exact e_product. Qed.
Print Assumptions C86_product.
Example C86_product_ex : good 2 (ESym ex_turn) /\ good 2 (ESym ex_glide).
Proof. exact (conj (conj eq_refl ex_turn_ok) (conj eq_refl ex_orthogonal)). Qed.

(** Products are associative. *)
Theorem C86_product_assoc : forall p q r a b c d, pg_product p q = Ok a -> pg_product a r = Ok b -> pg_product q r = Ok c -> pg_product p c = Ok d ->
  p_n b = p_n d /\ meq (p_n b) (p_W b) (p_W d) /\ veq (p_n b) (p_w b) (p_w d).
Proof. exact product_assoc. Qed.
Print Assumptions C86_product_assoc.
Example C86_product_assoc_ex : exists a, pg_product ex_turn ex_glide = Ok a.
Proof. destruct (product_closed _ _ ex_turn_ok ex_orthogonal eq_refl) as (r & E & _). exists r. exact E. Qed.

(** The preimage is the inverse of the action, on both sides. *)
Theorem C86_preimage : forall p x, proper_map p -> veq (p_n p) (act p (preimage p x)) x /\ veq (p_n p) (preimage p (act p x)) x.
Proof. exact preimage_both. Qed.
Print Assumptions C86_preimage.
Example C86_preimage_ex : this (preimage ex_glide (fun _ => 1%Qc) 0) = (1 # 2)%Q /\ this (preimage ex_glide (fun _ => 1%Qc) 1) = (-1 # 1)%Q.
Proof. split; vm_compute; reflexivity. Qed.

(** Momenta are transformed by the linear part alone. *)
Theorem C86_momentum : forall p x, veq (p_n p) (k_action p x) (fun i => act p x i - p_w p i)%Qc.
Proof. exact k_action_linear. Qed.
Print Assumptions C86_momentum.
Example C86_momentum_ex : this (k_action ex_glide (fun _ => 1%Qc) 0) = 1%Q.
Proof. vm_compute. reflexivity. Qed.

(** A changed origin is a fixed point, and the map is the same matrix about it. *)
Theorem C86_change_origin : forall p o, proper_map p -> exists q, change_origin p o = Ok q /\ p_n q = p_n p /\ p_W q = p_W p /\
  veq (p_n p) (act q o) o /\ forall x, veq (p_n p) (act q x) (fun i => o i + mvec (p_n p) (p_W p) (fun k => x k - o k)%Qc i)%Qc.
Proof. exact change_origin_main. Qed.
Print Assumptions C86_change_origin.
Example C86_change_origin_ex : exists q, change_origin ex_turn (fun _ => 1%Qc) = Ok q /\ this (act q (fun _ => 1%Qc) 0) = 1%Q /\ this (act q (fun _ => 0%Qc) 0) = 2%Q.
Proof. eexists. split; [exact (change_fields ex_turn _ ex_turn_ok)|]. split; vm_compute; reflexivity. Qed.

(** Changing the origin commutes with products. *)
Theorem C86_change_origin_product : forall p q o, proper_map p -> proper_map q -> p_n p = p_n q ->
  exists p' q' r r' s, change_origin p o = Ok p' /\ change_origin q o = Ok q' /\ pg_product p q = Ok r /\
    change_origin r o = Ok r' /\ pg_product p' q' = Ok s /\ forall x, veq (p_n p) (act s x) (act r' x).
Proof. exact change_product. Qed.
Print Assumptions C86_change_origin_product.
Example C86_change_origin_product_ex : proper_map ex_turn /\ proper_map ex_glide /\ p_n ex_turn = p_n ex_glide.
Proof. exact (conj ex_turn_ok (conj ex_orthogonal eq_refl)). Qed.

(** Equality of symmetries is an equivalence relation. *)
Theorem C86_eq_equivalence : (forall p, pg_eqb p p = true) /\ (forall p q, pg_eqb p q = pg_eqb q p) /\
  (forall p q r, pg_eqb p q = true -> pg_eqb q r = true -> pg_eqb p r = true).
Proof. exact pg_eq_equiv. Qed.
Print Assumptions C86_eq_equivalence.
Example C86_eq_equivalence_ex : pg_eqb ex_turn ex_glide = false.
Proof. vm_compute. reflexivity. Qed.

(** Equal symmetries have nearly the same matrix and translation. *)
Theorem C86_eq_sound : forall p q, pg_eqb p q = true -> p_n p = p_n q /\
  (forall i j, i < p_n p -> j < p_n p -> near (p_W p i j) (p_W q i j)) /\ (forall i, i < p_n p -> near (p_w p i) (p_w q i)).
Proof. exact pg_eq_spec. Qed.
Print Assumptions C86_eq_sound.
Example C86_eq_sound_ex : pg_eqb ex_turn ex_turn = true.
Proof. vm_compute. reflexivity. Qed.

(** Symmetries with the same matrix and translation are equal. *)
Theorem C86_eq_complete : forall p q, p_n p = p_n q -> meq (p_n p) (p_W p) (p_W q) -> veq (p_n p) (p_w p) (p_w q) -> pg_eqb p q = true.
Proof. exact pg_eq_same. Qed.
Print Assumptions C86_eq_complete.
Example C86_eq_complete_ex : meq 2 (p_W ex_turn) (fun i j => p_W ex_turn i j).
Proof. intros i j _ _. reflexivity. Qed.

(** Every entry of a returned table of inverses points to the inverse (up to rounding and lattice vectors). *)
Theorem C86_inverse : forall G minv t, pg_inverse minv G = Ok t -> length t = length (g_elems G) /\
  forall i, i < length (g_elems G) -> nth i t 0 < length (g_elems G) /\
    nearly G (e_matrix (el G (nth i t 0))) (e_translation (el G (nth i t 0))) (inv_W minv G (el G i)) (inv_w minv G (el G i)).
Proof. exact inverse_sound. Qed.
Print Assumptions C86_inverse.
Example C86_inverse_ex : pg_inverse ex_minv ex_group = Ok [0; 1].
Proof. exact (proj1 ex_tables). Qed.

(** A set without the inverse of an element is refused. *)
Theorem C86_inverse_missing : forall G minv i, i < length (g_elems G) ->
  (forall k, k < length (g_elems G) -> ~ nearly G (e_matrix (el G k)) (e_translation (el G k)) (inv_W minv G (el G i)) (inv_w minv G (el G i))) ->
  pg_inverse minv G = Err RuntimeError.
Proof. exact inverse_missing. Qed.
Print Assumptions C86_inverse_missing.
Example C86_inverse_missing_ex : pg_inverse ex_minv (PG [EId; ESym ex_turn] 2 None) = Err RuntimeError.
Proof. vm_compute. reflexivity. Qed.

(** Every entry of a returned product table points to the product of the inverse of the row with the column. *)
Theorem C86_table : forall G minv P, pg_product_table minv G = Ok P ->
  exists t, pg_inverse minv G = Ok t /\ length P = length (g_elems G) /\
  forall i j, i < length (g_elems G) -> j < length (g_elems G) -> length (nth i P []) = length (g_elems G) /\
    nth j (nth i P []) 0 < length (g_elems G) /\ nth i t 0 < length (g_elems G) /\
    nearly G (e_matrix (el G (nth j (nth i P []) 0))) (e_translation (el G (nth j (nth i P []) 0)))
      (prod_W G (el G (nth i t 0)) (el G j)) (prod_w G (el G (nth i t 0)) (el G j)).
Proof. exact table_sound. Qed.
Print Assumptions C86_table.
Example C86_table_ex : pg_product_table ex_minv ex_group = Ok [[0; 1]; [1; 0]].
Proof. exact (proj2 ex_tables). Qed.

(** A set that is not closed is refused. *)
Theorem C86_table_missing : forall G minv i j, i < length (g_elems G) -> j < length (g_elems G) ->
  (forall k, k < length (g_elems G) -> ~ nearly G (e_matrix (el G k)) (e_translation (el G k)) (prod_W G (el G i) (el G j)) (prod_w G (el G i) (el G j))) ->
  pg_product_table minv G = Err RuntimeError.
Proof. exact table_missing. Qed.
Print Assumptions C86_table_missing.
Example C86_table_missing_ex : pg_product_table ex_minv (PG [EId; ESym ex_glide] 2 None) = Err RuntimeError.
Proof. exact ex_open. Qed.

(** For a set closed under products and inverses up to lattice vectors, both tables exist and are exact: g * inverse(g) = 1 and g * table(g, h) = h. *)
Theorem C86_group_law : forall G minv, valid_cell G -> distinct G ->
  (forall i, i < length (g_elems G) -> inverse_of (g_ndim G) (e_matrix (el G i)) (minv (g_ndim G) (e_matrix (el G i))) /\ keeps_lattice G (e_matrix (el G i))) ->
  (forall i j, i < length (g_elems G) -> j < length (g_elems G) -> exists k, k < length (g_elems G) /\
     equal_mod G (e_matrix (el G k)) (e_translation (el G k)) (prod_W G (el G i) (el G j)) (prod_w G (el G i) (el G j))) ->
  (forall i, i < length (g_elems G) -> exists k, k < length (g_elems G) /\
     equal_mod G (e_matrix (el G k)) (e_translation (el G k)) (inv_W minv G (el G i)) (inv_w minv G (el G i))) ->
  exists t P, pg_inverse minv G = Ok t /\ pg_product_table minv G = Ok P /\
    (forall i, i < length (g_elems G) -> nth i t 0 < length (g_elems G) /\
       equal_mod G eye (fun _ => 0%Qc) (prod_W G (el G i) (el G (nth i t 0))) (prod_w G (el G i) (el G (nth i t 0)))) /\
    (forall i j, i < length (g_elems G) -> j < length (g_elems G) -> nth j (nth i P []) 0 < length (g_elems G) /\
       equal_mod G (e_matrix (el G j)) (e_translation (el G j))
         (prod_W G (el G i) (el G (nth j (nth i P []) 0))) (prod_w G (el G i) (el G (nth j (nth i P []) 0)))).
Proof. exact group_law. Qed.
Print Assumptions C86_group_law.
Example C86_group_law_ex : valid_cell ex_group /\ distinct ex_group /\
  (forall i, i < 2 -> inverse_of 2 (e_matrix (el ex_group i)) (ex_minv 2 (e_matrix (el ex_group i))) /\ keeps_lattice ex_group (e_matrix (el ex_group i))) /\
  (forall i j, i < 2 -> j < 2 -> exists k, k < 2 /\
     equal_mod ex_group (e_matrix (el ex_group k)) (e_translation (el ex_group k)) (prod_W ex_group (el ex_group i) (el ex_group j)) (prod_w ex_group (el ex_group i) (el ex_group j))) /\
  (forall i, i < 2 -> exists k, k < 2 /\
     equal_mod ex_group (e_matrix (el ex_group k)) (e_translation (el ex_group k)) (inv_W ex_minv ex_group (el ex_group i)) (inv_w ex_minv ex_group (el ex_group i))).
Proof. exact (conj ex_cell (conj ex_distinct (conj (fun i H => conj (ex_minv_ok i H) (ex_keeps i H)) (conj ex_closed ex_inverse)))). Qed.

(** Duplicates are removed: the order is kept, every element is still represented by itself or an earlier one, no two kept elements are equal up to a lattice vector, and nothing happens without duplicates. *)
Theorem C86_remove_duplicates : forall G, valid_cell G ->
  let M i := e_matrix (el G i) in let w_ i := e_translation (el G i) in
  exists idx, pg_remove_duplicates G = PG (map (el G) idx) (g_ndim G) (g_cell G) /\ StronglySorted lt idx /\
    (forall k, In k idx -> k < length (g_elems G)) /\
    (forall i, i < length (g_elems G) -> exists k, In k idx /\ k <= i /\ nearly G (M k) (w_ k) (M i) (w_ i)) /\
    (forall k l, In k idx -> In l idx -> k <> l -> ~ equal_mod G (M k) (w_ k) (M l) (w_ l)) /\
    (distinct G -> idx = seq 0 (length (g_elems G))).
Proof. exact remove_duplicates_main. Qed.
Print Assumptions C86_remove_duplicates.
Example C86_remove_duplicates_ex : pg_remove_duplicates ex_dup = PG [EId; ESym ex_turn] 2 None.
Proof. exact ex_dedup. Qed.

(** The rotation group consists of the elements with determinant one, and is closed whenever the group is (up to three dimensions). *)
Theorem C86_rotation_group : forall G, g_ndim G <= 3 -> (forall a, In a (g_elems G) -> good (g_ndim G) a) ->
  let R := rotation_group G in
  g_ndim R = g_ndim G /\ g_cell R = g_cell G /\
  g_elems R = filter (fun a => if Qc_eq_dec (determinant (g_ndim G) a) 1%Qc then true else false) (g_elems G) /\
  (forall a b c, In a (g_elems R) -> In b (g_elems R) -> e_mul a b = Ok c -> In c (g_elems G) -> In c (g_elems R)).
Proof. exact rotation_main. Qed.
Print Assumptions C86_rotation_group.
Example C86_rotation_group_ex : g_ndim ex_mixed <= 3 /\ (forall a, In a (g_elems ex_mixed) -> good (g_ndim ex_mixed) a) /\ g_elems (rotation_group ex_mixed) = [EId; ESym ex_turn].
Proof. exact (conj (le_S _ _ (le_n 2)) (conj ex_mixed_good ex_rotations)). Qed.

(** Changing the origin of a group gives, in the same order, the same matrices about the new origin. *)
Theorem C86_group_change_origin : forall G o, (forall a, In a (g_elems G) -> good (g_ndim G) a) ->
  exists H, pg_change_origin G o = Ok H /\ g_ndim H = g_ndim G /\ g_cell H = g_cell G /\ length (g_elems H) = length (g_elems G) /\
  forall i, i < length (g_elems G) -> good (g_ndim G) (el H i) /\ meq (g_ndim G) (e_matrix (el H i)) (e_matrix (el G i)) /\
    veq (g_ndim G) (e_act (el H i) o) o /\
    forall x, veq (g_ndim G) (e_act (el H i) x) (fun j => o j + mvec (g_ndim G) (e_matrix (el G i)) (fun k => x k - o k)%Qc j)%Qc.
Proof. exact group_change_origin_main. Qed.
Print Assumptions C86_group_change_origin.
Example C86_group_change_origin_ex : forall a, In a (g_elems ex_mixed) -> good (g_ndim ex_mixed) a.
Proof. exact ex_mixed_good. Qed.

(** The product of two groups has all products, first factor slowest; groups of different dimension or unit cell are refused. *)
Theorem C86_group_product : forall A B, (forall a, In a (g_elems A) -> good (g_ndim A) a) -> (forall b, In b (g_elems B) -> good (g_ndim B) b) ->
  match pg_group_product A B with
  | Ok C => g_ndim A = g_ndim B /\ g_ndim C = g_ndim A /\ g_cell C = match g_cell A with None => g_cell B | c => c end /\
      length (g_elems C) = length (g_elems A) * length (g_elems B) /\
      forall i j, i < length (g_elems A) -> j < length (g_elems B) ->
        let c := el C (i * length (g_elems B) + j) in good (g_ndim A) c /\
        forall x, veq (g_ndim A) (e_act c x) (e_act (el A i) (e_act (el B j) x))
  | Err e => e = ValueError /\ (g_ndim A <> g_ndim B \/ exists U Ui V Vi, g_cell A = Some (U, Ui) /\ g_cell B = Some (V, Vi) /\ ~ meq (g_ndim A) U V)
  end.
Proof. exact group_product_main. Qed.
Print Assumptions C86_group_product.
Example C86_group_product_ex : (forall a, In a (g_elems ex_mixed) -> good (g_ndim ex_mixed) a) /\ exists C, pg_group_product ex_mixed ex_mixed = Ok C.
Proof. split; [exact ex_mixed_good|]. pose proof (group_product_main ex_mixed ex_mixed ex_mixed_good ex_mixed_good) as H.
  destruct (pg_group_product ex_mixed ex_mixed) as [C|e]; [exists C; reflexivity|].
  destruct H as [_ [H|(U & Ui & V & Vi & H & _)]]; [now destruct H|discriminate H]. Qed.

(** Groups of the same size with the same unit cell are equal exactly if their elements are, in order.  Missing: groups without unit cell, or of different sizes, see below. *)
Theorem C86_group_eq_partial : forall G H U Ui V Vi, g_cell G = Some (U, Ui) -> g_cell H = Some (V, Vi) -> g_ndim G = g_ndim H ->
  length (g_elems G) = length (g_elems H) -> meq (g_ndim G) U V ->
  exists b, pg_group_eq G H = Ok b /\ (b = true <-> forall i, i < length (g_elems G) -> e_eqb (el G i) (el H i) = true).
Proof. exact group_eq_main. Qed.
Print Assumptions C86_group_eq_partial.
Example C86_group_eq_partial_ex : pg_group_eq ex_group ex_group = Ok true.
Proof. vm_compute. reflexivity. Qed.

(** Comparing two groups without unit cell always raises, even a group with itself. *)
Theorem C86_group_eq_no_cell_refuted : forall l n l' n', pg_group_eq (PG l n None) (PG l' n' None) = Err TypeError.
Proof. exact eq_no_cell. Qed.
Print Assumptions C86_group_eq_no_cell_refuted.
Example C86_group_eq_no_cell_refuted_ex : pg_group_eq ex_mixed ex_mixed = Err TypeError.
Proof. reflexivity. Qed.

(** A group equals any group that starts with its elements; the other way round raises. *)
Theorem C86_group_eq_refuted : exists G H, valid_cell G /\ valid_cell H /\ pg_group_eq G H = Ok true /\ pg_group_eq H G = Err IndexError.
Proof. exact eq_not_symmetric. Qed.
Print Assumptions C86_group_eq_refuted.


(** A matrix that is only nearly orthogonal is accepted, although its square is not and its preimage does not undo it. *)
Theorem C86_orthogonal_refuted : exists p, pg_symmetry 1 1 ex_stretch None = Ok p /\ pg_product p p = Err ValueError /\
  preimage p (act p (fun _ => 1%Qc)) 0 <> 1%Qc.
Proof. exact ex_stretch_facts. Qed.
Print Assumptions C86_orthogonal_refuted.


(** The identity element and the symmetry with identity matrix are the same map, but not equal. *)
Theorem C86_identity_refuted : exists p, pg_symmetry 2 2 eye None = Ok p /\ e_eqb EId (ESym p) = false /\ same_map 2 EId (ESym p).
Proof. exact identity_differs. Qed.
Print Assumptions C86_identity_refuted.

