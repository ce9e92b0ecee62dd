(** * C87: the permutations of space groups *)
From Coq Require Import List Arith Bool ZArith QArith Qcanon.
From Verif Require Import Base Lattice_Model LatGen_Model LatGen_Spec PointGp_Model PointGp_Spec Group_Model Group_Spec SpaceGp_Model SpaceGp_Spec
  SpaceGp_Proofs SpaceGp_Group SpaceGp_Space SpaceGp_Ex.
Import ListNotations.
Open Scope nat_scope.

(** Symmetries of the lattice in its box: point_group lists, in order, the permutations that
    belong to them; they form a group if the symmetries are a group of maps of the box. *)
Theorem C87_point_group : forall L, proper_lattice L -> forall l, (forall p, In p l -> box_symmetry L (map_of L p)) ->
  exists G, sg_point_group L l = Ok G /\ degree G = n_nodes L /\ Forall (wf (n_nodes L)) (elems G) /\
    Forall2 (fun e p => belongs L (map_of L p) (perm_of (n_nodes L) e)) (elems G) l /\
    (group_in_box L l -> is_group (n_nodes L) (perms G)).
Proof. exact point_group_main. Qed.
Print Assumptions C87_point_group.
Example C87_point_group_ex : proper_lattice two_L /\ (forall p, In p flips -> box_symmetry two_L (map_of two_L p)) /\ group_in_box two_L flips /\
  proper_lattice glide_L /\ (forall p, In p glides -> box_symmetry glide_L (map_of glide_L p)) /\
  sg_point_group glide_L glides = Ok (PG [EId; EPerm [5; 0; 7; 2; 1; 4; 3; 6]] 8).
Proof. exact (conj two_proper (conj two_symmetry (conj two_in_box (conj glide_proper (conj glide_symmetry glide_point))))). Qed.

(** Refuted: the point group is a group whenever the symmetries are one up to translations by whole cells. *)
Theorem C87_point_group_refuted : exists L l G, proper_lattice L /\ full_lattice L /\ group_mod_cells L l /\ (forall p, In p l -> box_symmetry L (map_of L p)) /\
  sg_point_group L l = Ok G /\ ~ is_group (n_nodes L) (perms G) /\ product_table G = Err RuntimeError.
Proof. exact point_group_refuted. Qed.
Print Assumptions C87_point_group_refuted.

(** Refuted: a symmetry of the infinite lattice is rejected or yields a permutation. *)
Theorem C87_permutation_refuted : exists L s G, proper_lattice L /\ integral L (map_of L (PSym s)) /\ isometry L (map_of L (PSym s)) /\
  (forall v, (forall d, d < dimension L -> exists z, v d = zc z) -> forall d, d < dimension L -> exists z, map_of L (PSym s) v d = zc z) /\
  sg_point_group L [PId; PSym s] = Ok G /\ exists g, In g (elems G) /\ ~ isperm (n_nodes L) (perm_of (n_nodes L) g).
Proof. exact permutation_refuted. Qed.
Print Assumptions C87_permutation_refuted.

(** Translations along any axes: one element for every tuple of displacements, the last axis
    fastest; they form a group; different if no axis is repeated. *)
Theorem C87_translations : forall L axes o, proper_lattice L -> full_lattice L -> (o = Some axes \/ o = None /\ axes = seq 0 (dimension L)) ->
  axes <> [] -> (forall a, In a axes -> a < dimension L) ->
  exists G, sg_translation_group L o = Ok G /\ degree G = n_nodes L /\ Forall (wf (n_nodes L)) (elems G) /\
    Forall2 (fun g t => belongs L (back (shift_of axes t)) (perm_of (n_nodes L) g)) (elems G) (tuples L axes) /\ is_group (n_nodes L) (perms G) /\
    (NoDup axes -> NoDup (perms G)).
Proof. exact translations_any. Qed.
Print Assumptions C87_translations.
Theorem C87_displacements : forall L axes, proper_lattice L -> (forall a, In a axes -> a < dimension L) -> NoDup (tuples L axes) /\
  forall t, In t (tuples L axes) <-> Forall2 (fun k a => if nth a (g_pbc (gl_geom L)) false then (0 <= k < nth a (g_extent (gl_geom L)) 0)%Z else k = 0%Z) t axes.
Proof. exact tuples_meaning. Qed.
Print Assumptions C87_displacements.
Example C87_translations_ex : proper_lattice glide_L /\ full_lattice glide_L /\ tuples glide_L [0; 1] = [[0; 0]; [0; 1]; [1; 0]; [1; 1]]%Z /\
  sg_translation_group glide_L (Some [1]) = Ok (PG [EId; EPerm [2; 3; 0; 1; 6; 7; 4; 5]] 8).
Proof. split; [exact glide_proper|]. split; [exact glide_full|]. split; vm_compute; reflexivity. Qed.

(** No axis at all is refused rather than giving the trivial group. *)
Theorem C87_no_axes : forall L, sg_translation_group L (Some []) = Err TypeError.
Proof. exact (fun L => eq_refl). Qed.
Print Assumptions C87_no_axes.

(** Every translation by whole cells is an element of the full translation group. *)
Theorem C87_translations_complete : forall L, proper_lattice L -> full_lattice L -> 0 < dimension L -> forall m, displacement L m ->
  exists G g, sg_translation_group L None = Ok G /\ In g (elems G) /\ belongs L (back m) (perm_of (n_nodes L) g).
Proof. exact translations_complete. Qed.
Print Assumptions C87_translations_complete.
Example C87_translations_complete_ex : proper_lattice glide_L /\ full_lattice glide_L /\ 0 < dimension glide_L /\ displacement glide_L (fun d => if Nat.eqb d 0 then 7 else -3)%Z.
Proof. split; [exact glide_proper|]. split; [exact glide_full|]. split; [cbn; auto with arith|]. intros [|[|d]] Hd Pd; cbn in *; try discriminate. exfalso. revert Hd. clear. intros H. inversion H as [|? H1]. inversion H1 as [|? H2]. inversion H2. Qed.

(** Symmetries which are a group up to translations by whole cells: space_group lists, for every
    translation and then for every symmetry, the permutation of the symmetry combined with the
    translation, and is a group. *)
Theorem C87_space_group : forall L, proper_lattice L -> full_lattice L -> forall l, group_mod_cells L l -> (forall p, In p l -> box_symmetry L (map_of L p)) ->
  0 < dimension L -> exists G, sg_space_group L l = Ok G /\ degree G = n_nodes L /\ Forall (wf (n_nodes L)) (elems G) /\
  Forall2 (fun g tp => belongs L (fun v => map_of L (snd tp) (back (shift_of (seq 0 (dimension L)) (fst tp)) v)) (perm_of (n_nodes L) g))
    (elems G) (list_prod (tuples L (seq 0 (dimension L))) l) /\
  is_group (n_nodes L) (perms G).
Proof. exact space_group_main. Qed.
Print Assumptions C87_space_group.
Example C87_space_group_ex : proper_lattice glide_L /\ full_lattice glide_L /\ group_mod_cells glide_L glides /\
  (forall p, In p glides -> box_symmetry glide_L (map_of glide_L p)) /\ 0 < dimension glide_L.
Proof. split; [exact glide_proper|]. split; [exact glide_full|]. split; [exact glide_mod_cells|]. split; [exact glide_symmetry|]. cbn; auto with arith. Qed.

(** Refuted: different symmetries give different elements of the space group. *)
Theorem C87_distinct_refuted : exists L l G, proper_lattice L /\ full_lattice L /\ group_mod_cells L l /\ (forall p, In p l -> box_symmetry L (map_of L p)) /\
  (forall p q, In p l -> In q l -> (forall v d, d < dimension L -> map_of L p v d = map_of L q v d) -> p = q) /\
  sg_space_group L l = Ok G /\ ~ NoDup (perms G).
Proof. exact distinct_refuted. Qed.
Print Assumptions C87_distinct_refuted.

(** If the edges join the sites at one distance, the permutation of an isometry keeps edges. *)
Theorem C87_edges : forall L f h p r2, proper_lattice L -> edges_at L r2 -> maps_sites L f -> maps_sites L h -> undo L f h -> isometry L f -> isometry L h -> belongs L f p ->
  forall i j, i < n_nodes L -> j < n_nodes L -> i <> j -> (joined L i j <-> joined L (nth i p 0) (nth j p 0)).
Proof. exact edges_kept. Qed.
Print Assumptions C87_edges.
Example C87_edges_ex : proper_lattice ring_L /\ edges_at ring_L 1%Qc /\ maps_sites ring_L (fpre 1 (flip 1)) /\ undo ring_L (fpre 1 (flip 1)) (fpre 1 (flip 1)) /\
  isometry ring_L (fpre 1 (flip 1)) /\ belongs ring_L (fpre 1 (flip 1)) [1; 0; 3; 2].
Proof. exact (conj ring_proper (conj ring_edges (conj ring_maps (conj (flip_undo ring_L 1 eq_refl) (conj ring_isometry ring_belongs))))). Qed.

(** The components, with respect to the basis, of the preimage under a PGSymmetry. *)
Theorem C87_basis : forall U Ui p v d, components (p_n p) Ui (preimage p (cartesian (p_n p) U v)) d = fpre (p_n p) (basis_form U Ui p) v d.
Proof. exact basis_form_main. Qed.
Print Assumptions C87_basis.
