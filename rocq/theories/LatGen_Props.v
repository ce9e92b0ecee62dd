(** * C85: lattices with any basis and unit cell *)
From Coq Require Import List Arith Bool ZArith QArith Qabs Sorted Lia Lqa.
From Verif Require Import Base Lattice_Model Lattice_Spec FloatCmp_Model FloatCmp_Spec LatGen_Model LatGen_Spec
  LatGen_Proofs LatGen_Look LatGen_Ex.
Import ListNotations.
Open Scope Z_scope.

(** The sites are exactly those which have a neighbour, in lexicographic order of cell and
    label, and the edges are exactly the pairs of neighbours, each once. *)
Theorem C85_lattice : forall g, valid g -> (exists c d, adjacent g c d) ->
  exists L, gen_lattice g = Ok L /\ gl_geom L = g /\ StronglySorted lex (gl_sites L) /\
    (forall c, In c (gl_sites L) <-> exists d, adjacent g c d) /\ NoDup (gl_edges L) /\
    (forall i j, In (i, j) (gl_edges L) <-> (i < j < length (gl_sites L))%nat /\
       adjacent g (nth i (gl_sites L) []) (nth j (gl_sites L) [])).
Proof. exact (fun g V => proj1 (gen_main g V)). Qed.
Print Assumptions C85_lattice.

(** A lattice without neighbours is refused. *)
Theorem C85_no_neighbours : forall g, valid g -> (forall c d, ~ adjacent g c d) -> gen_lattice g = Err ValueError.
Proof. exact no_neighbours. Qed.
Print Assumptions C85_no_neighbours.

(** Translation invariance: on a periodic lattice, if the sites [q] and [q'] of cells which
    differ by [dl] are nearest neighbours somewhere, they are everywhere. *)
Theorem C85_translation : forall g c dl q q', valid g -> Forall (fun p => p = true) (g_pbc g) ->
  length c = length (g_extent g) -> length dl = length (g_extent g) -> Forall (fun k => -1 <= k <= 1) dl ->
  nearest_pair g (c ++ [q]) (plus_cell c dl ++ [q']) ->
  forall c', in_box (g_extent g) c' -> adjacent g (c' ++ [q]) (folded g (plus_cell c' dl ++ [q'])).
Proof. exact neighbours_everywhere. Qed.
Print Assumptions C85_translation.

(** The documentation promises a site at every offset of every cell; a site without a
    nearest neighbour is left out without notice. *)
Theorem C85_every_site_refuted : exists g L c, valid g /\ shaped g /\ gen_lattice g = Ok L /\ of_box g c /\ ~ In c (gl_sites L).
Proof. exact every_site_refuted. Qed.
Print Assumptions C85_every_site_refuted.

(** Offsets outside the unit cell are accepted, and a pair of sites at the smallest distance is
    not joined by an edge. *)
Theorem C85_outside_refuted : exists g L i j n a b, valid g /\ shaped g /\ gen_lattice g = Ok L /\
  (i < j < length (gl_sites L))%nat /\ shift_ok g n /\ In (a, b) (gl_edges L) /\ ~ In (i, j) (gl_edges L) /\
  (quad (g_gram g) (vsub (frac g (nth i (gl_sites L) [])) (moved g n (frac g (nth j (gl_sites L) []))))
   == sqdist g (nth a (gl_sites L) []) (nth b (gl_sites L) []))%Q.
Proof. exact outside_refuted. Qed.
Print Assumptions C85_outside_refuted.

(** The warning that sites were specified outside the unit cell is never given. *)
Theorem C85_outside_warning_refuted : forall nd o, o_warn_outside (clean_site_offsets nd o) = false.
Proof. exact never_outside. Qed.
Print Assumptions C85_outside_warning_refuted.

(** Offsets that coincide up to a lattice vector are dropped with a warning, and no others. *)
Theorem C85_offsets : forall nd offs, Forall (fun o => length o = nd) offs ->
  let r := clean_site_offsets nd (Some offs) in
  incl (o_offsets r) offs /\
  (forall o, In o offs -> exists o', In o' (o_offsets r) /\ same_offset o o') /\
  (forall i j, (i < length (o_offsets r))%nat -> (j < length (o_offsets r))%nat -> i <> j ->
     ~ translate (nth i (o_offsets r) []) (nth j (o_offsets r) [])) /\
  ((forall i j, (i < length offs)%nat -> (j < length offs)%nat -> i <> j -> ~ same_offset (nth i offs []) (nth j offs [])) ->
     o_offsets r = offs /\ o_warn_duplicates r = false) /\
  (o_warn_duplicates r = false -> o_offsets r = offs) /\
  ((exists i j, (i < j < length offs)%nat /\ translate (nth i offs []) (nth j offs [])) -> o_warn_duplicates r = true).
Proof. exact offsets_props. Qed.
Print Assumptions C85_offsets.

(** Dropping a duplicate may change the order of the others, and so the labels of the sites. *)
Theorem C85_offset_order_refuted : exists offs a b, offs = [a; b; b] /\ ~ same_offset a b /\
  o_offsets (clean_site_offsets 1 (Some offs)) = [b; a].
Proof. exact offset_order_refuted. Qed.
Print Assumptions C85_offset_order_refuted.

(** The position of a site, also after moving by whole boxes along periodic directions, is
    looked up as that site, if no two sites are in the same place. *)
Theorem C85_lookup : forall g L, valid g -> shaped g -> gen_lattice g = Ok L -> forall i n y,
  (forall j k, (j < length (gl_sites L))%nat -> (k < length (gl_sites L))%nat -> j <> k ->
     ~ same_position g (frac g (nth j (gl_sites L) [])) (frac g (nth k (gl_sites L) []))) ->
  (i < length (gl_sites L))%nat -> shift_ok g n -> Forall2 Qeq y (moved g n (frac g (nth i (gl_sites L) []))) ->
  id_from_position L y = Ok i.
Proof. exact id_exact. Qed.
Print Assumptions C85_lookup.

(** Whatever a look-up returns is a site in the place asked for. *)
Theorem C85_lookup_sound : forall g L, valid g -> shaped g -> gen_lattice g = Ok L -> forall y i,
  length y = length (g_extent g) -> id_from_position L y = Ok i ->
  (i < length (gl_sites L))%nat /\ same_position g y (frac g (nth i (gl_sites L) [])).
Proof. exact id_sound. Qed.
Print Assumptions C85_lookup_sound.

(** The place of a site is always found. *)
Theorem C85_lookup_found : forall g L, valid g -> shaped g -> gen_lattice g = Ok L -> forall i n y,
  (i < length (gl_sites L))%nat -> shift_ok g n -> Forall2 Qeq y (moved g n (frac g (nth i (gl_sites L) []))) ->
  exists k, id_from_position L y = Ok k.
Proof. exact id_found. Qed.
Print Assumptions C85_lookup_found.

(** Without the hypothesis on places the look-up of a site may give another one: the accuracy
    is relative to the whole lattice, whereas offsets are told apart relative to the cell. *)
Theorem C85_lookup_refuted : exists g L, valid g /\ shaped g /\
  o_offsets (clean_site_offsets 1 (Some (g_offsets g))) = g_offsets g /\ gen_lattice g = Ok L /\
  exists i j, (i < length (gl_sites L))%nat /\ i <> j /\ id_from_position L (frac g (nth i (gl_sites L) [])) = Ok j.
Proof. exact lookup_refuted. Qed.
Print Assumptions C85_lookup_refuted.

(** Look-up by cell and label. *)
Theorem C85_basis_coords : forall g L, valid g -> gen_lattice g = Ok L -> forall i,
  (i < length (gl_sites L))%nat ->
  id_from_basis_coords L (nth i (gl_sites L) []) = Ok i /\
  position_from_basis_coords L (nth i (gl_sites L) []) = Ok (frac g (nth i (gl_sites L) [])).
Proof. exact basis_exact. Qed.
Print Assumptions C85_basis_coords.

Theorem C85_basis_coords_invalid : forall L c, ~ In c (gl_sites L) ->
  id_from_basis_coords L c = Err Exception_ /\ position_from_basis_coords L c = Err Exception_.
Proof. exact basis_none. Qed.
Print Assumptions C85_basis_coords_invalid.

(** Wave vectors: the result is the integer vector within the tolerance, which vanishes on the
    open axes, and there is an error if there is none. *)
Theorem C85_wave : forall pbc kappa r, length pbc = length kappa ->
  to_reciprocal_lattice pbc kappa = Ok r <->
  Forall2 (fun x k => (Qabs (x - inject_Z k) <= 1 # 100000000)%Q) kappa r /\ Forall2 (fun p k => p = false -> k = 0) pbc r.
Proof. exact wave. Qed.
Print Assumptions C85_wave.

Theorem C85_wave_total : forall pbc kappa,
  (exists r, to_reciprocal_lattice pbc kappa = Ok r) \/ to_reciprocal_lattice pbc kappa = Err Exception_.
Proof. exact wave_total. Qed.
Print Assumptions C85_wave_total.

(** ** examples *)
(** a honeycomb lattice of 3 x 3 cells: 18 sites, 27 edges *)
Example C85_ex_honeycomb : valid honeycomb /\ shaped honeycomb /\
  match gen_lattice honeycomb with Ok L => length (gl_sites L) = 18%nat /\ length (gl_edges L) = 27%nat | _ => False end.
Proof. exact ex_honeycomb. Qed.
Example C85_ex_adjacent : exists c d, adjacent pair_chain c d.
Proof. exact ex_adjacent. Qed.
Example C85_ex_translation : nearest_pair pair_chain ([0] ++ [0]) (plus_cell [0] [0] ++ [1]).
Proof. exact ex_nearest. Qed.
Example C85_ex_separate : match gen_lattice pair_chain with
  | Ok L => length (gl_sites L) = 6%nat /\
    forall j k, (j < length (gl_sites L))%nat -> (k < length (gl_sites L))%nat -> j <> k ->
     ~ same_position pair_chain (frac pair_chain (nth j (gl_sites L) [])) (frac pair_chain (nth k (gl_sites L) []))
  | _ => False end.
Proof. exact ex_separate. Qed.
Example C85_ex_none : valid lonely /\ forall c d, ~ adjacent lonely c d.
Proof. exact ex_lonely. Qed.
Example C85_ex_wave : to_reciprocal_lattice [true; false] [(300000001 # 100000000)%Q; 0%Q] = Ok [3; 0] /\
  to_reciprocal_lattice [true; false] [3%Q; 1%Q] = Err Exception_ /\ to_reciprocal_lattice [true] [(1 # 2)%Q] = Err Exception_.
Proof. vm_compute. auto. Qed.
