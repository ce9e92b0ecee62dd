(** Proofs of C90: the symmetries of the box give the space group of a grid. *)
From Coq Require Import List Arith Bool ZArith QArith Qcanon Permutation Lia.
From Verif Require Import Base BaseFacts Rings FloatCmp_Model FloatCmp_Proofs Lattice_Model Lattice_Spec LatGen_Model LatGen_Spec LatGen_Proofs LatGen_Look
  Group_Model Group_Spec Group_Proofs Lattice_Trans SpaceGp_Model SpaceGp_Spec SpaceGp_Proofs SpaceGp_Group SpaceGp_Space
  PointGp_Model PointGp_Spec PointGp_Lin PointGp_Proofs PointGp_Tables PointGp_Group
  Grid_Model Grid_Spec Grid_Proofs Grid_Group Grid_Lattice Grid_Sites.
Import ListNotations.
Open Scope nat_scope.

Section Grid.
Variables (extent : list Z) (pbc : list bool).
Hypothesis Bx : boxed extent pbc.
Notation n := (length extent).
Notation e := (e_ extent).
Notation p := (p_ pbc).
Hypothesis Nb : has_neighbours extent pbc.
Hypothesis Sm : forall d, d < n -> (e d < 3326400)%Z.
Variable L : glattice.
Hypothesis HL : grid_lattice extent pbc = Ok L.
Notation N := (n_nodes L).
Notation cell := (cell L).
Variable c : vec.
Hypothesis Hc : centre extent pbc c.

Lemma Ldim : dimension L = n.
Proof. exact (L_dim extent pbc Bx Nb L HL). Qed.
Lemma Lpbc d : nth d (g_pbc (gl_geom L)) false = p d.
Proof. exact (L_pbc extent pbc Bx Nb L HL d). Qed.
Lemma Lext d : nth d (g_extent (gl_geom L)) 0%Z = e d.
Proof. exact (L_ext extent pbc Bx Nb L HL d). Qed.

(** the sum of a coordinate and its mirror image *)
Definition ends (d : nat) : Z := if p d then 0%Z else (e d - 1)%Z.
Lemma centre_ends d : d < n -> (c d + c d = zc (ends d))%Qc.
Proof. intros Hd. specialize (Hc d Hd). unfold ends. fold (p d) in Hc. destruct (p d); [rewrite Hc; symmetry; rewrite zc_0; ring|exact Hc]. Qed.
Lemma centre_same s d : axis_perm n s -> keeps_box extent pbc s -> d < n -> c (s d) = c d.
Proof.
  intros [S _] K Hd. destruct (K d Hd) as [K1 K2]. pose proof (centre_ends d Hd) as A. pose proof (centre_ends (s d) (S d Hd)) as B.
  assert (E : ends (s d) = ends d) by (unfold ends, e_, p_; now rewrite K1, K2). rewrite E, <- A in B.
  transitivity ((c (s d) + c (s d)) / (1 + 1))%Qc; [field; discriminate|]. rewrite B. field. discriminate.
Qed.
Lemma bm_eq s f v d : axis_perm n s -> keeps_box extent pbc s -> d < n -> box_map c s f v d = (if f d then zc (ends d) - v (s d) else v (s d))%Qc.
Proof.
  intros S K Hd. unfold box_map. rewrite (centre_same s d S K Hd), <- (centre_ends d Hd). destruct (f d); cbn [sgn]; ring.
Qed.
Lemma keeps_e s d : keeps_box extent pbc s -> d < n -> e (s d) = e d.
Proof. intros K Hd. exact (proj1 (K d Hd)). Qed.
Lemma keeps_p s d : keeps_box extent pbc s -> d < n -> p (s d) = p d.
Proof. intros K Hd. exact (proj2 (K d Hd)). Qed.
Definition sz (b : bool) (z : Z) : Z := if b then (- z)%Z else z.

Lemma bm_respects s f : axis_perm n s -> keeps_box extent pbc s -> forall v v', same_point L v v' -> same_point L (box_map c s f v) (box_map c s f v').
Proof.
  intros S K v v' (m & A & B). rewrite Ldim in A, B. exists (fun d => sz (f d) (m (s d))). rewrite Ldim. split.
  - intros d Hd Pd. rewrite Lpbc in Pd. rewrite A; [now destruct (f d)|now apply S|]. rewrite Lpbc, (keeps_p s d K Hd). exact Pd.
  - intros d Hd. rewrite !bm_eq by auto. rewrite (B (s d) (proj1 S d Hd)), !Lext, (keeps_e s d K Hd). destruct (f d); cbn [sz]; [|reflexivity].
    rewrite Z.mul_opp_l, zc_opp. ring.
Qed.
Lemma bm_sites s f : axis_perm n s -> keeps_box extent pbc s -> forall i, i < N -> exists k, k < N /\ same_point L (box_map c s f (place L i)) (place L k).
Proof.
  intros S K i Hi. apply (int_site extent pbc Bx Nb L HL (fun d => if f d then (ends d - cell i (s d))%Z else cell i (s d))).
  - intros d Hd. rewrite bm_eq by auto. rewrite (cell_place extent pbc Bx Nb L HL) by (try apply S; auto). destruct (f d); [symmetry; apply zc_sub|reflexivity].
  - intros d Hd Pd. pose proof (cell_range extent pbc Bx Nb L HL i (s d) Hi (proj1 S d Hd)) as R. rewrite (keeps_e s d K Hd) in R. unfold ends. rewrite Pd. destruct (f d); lia.
Qed.
Lemma bm_maps s f : axis_perm n s -> keeps_box extent pbc s -> maps_sites L (box_map c s f).
Proof. intros S K. split; [now apply bm_respects|now apply bm_sites]. Qed.
Lemma bm_undo s f t : axis_perm n s -> axis_perm n t -> (forall i, i < n -> t (s i) = i) -> (forall i, i < n -> s (t i) = i) -> undo L (box_map c s f) (box_map c t (fun j => f (t j))).
Proof.
  intros S T E1 E2 v. split; apply same_ext; rewrite Ldim; intros d Hd.
  - unfold box_map. rewrite (E2 d Hd). transitivity (c d + sgn (f (t d)) * sgn (f (t d)) * (v d - c d))%Qc; [ring|]. rewrite sgn_sq. ring.
  - exact (box_inv n c s f t v d E1 Hd).
Qed.
Lemma bm_symmetry s f : axis_perm n s -> keeps_box extent pbc s -> box_symmetry L (box_map c s f).
Proof.
  intros S K. split; [now apply bm_maps|]. destruct (inverse_index n s S) as (t & T & E1 & E2). exists (box_map c t (fun j => f (t j))).
  split; [apply bm_maps; [exact T|eapply keeps_inv; eauto]|]. now apply bm_undo.
Qed.
Lemma bm_isometry s f : axis_perm n s -> keeps_box extent pbc s -> isometry L (box_map c s f).
Proof.
  intros S K u v. rewrite !(qform_grid extent pbc Bx Nb L HL).
  rewrite (qs_ext n _ (fun d => vdiff u v (s d) * vdiff u v (s d))%Qc).
  - exact (fsum_perm qC qC_laws n s (fun d => vdiff u v d * vdiff u v d)%Qc (proj1 S) (proj2 S)).
  - intros d Hd. unfold vdiff. rewrite !bm_eq by auto. destruct (f d); ring.
Qed.
Lemma bm_integral s f : axis_perm n s -> keeps_box extent pbc s -> integral L (box_map c s f).
Proof.
  intros S K m Hm. exists (fun d => if Nat.ltb d n then sz (f d) (m (s d)) else 0%Z). split.
  - intros d Hd Pd. rewrite Ldim in Hd. rewrite (proj2 (Nat.ltb_lt d n) Hd). rewrite Lpbc in Pd. rewrite Hm; [now destruct (f d)|rewrite Ldim; now apply S|]. now rewrite Lpbc, (keeps_p s d K Hd).
  - intros v d Hd. rewrite Ldim in Hd. unfold vplus. rewrite (proj2 (Nat.ltb_lt d n) Hd), !bm_eq by auto. destruct (f d); cbn [sz]; [rewrite zc_opp|]; ring.
Qed.

(** ** the point group *)
Variable G : point_group.
Hypothesis HG : grid_point_group extent pbc = Ok G.
Lemma G_all : (forall i, i < length (g_elems G) -> good n (el G i) /\ exists s f, axis_perm n s /\ keeps_box extent pbc s /\ acts_as n (el G i) (box_map c s f)) /\
  (forall s f, axis_perm n s -> keeps_box extent pbc s -> exists i, i < length (g_elems G) /\ acts_as n (el G i) (box_map c s f)) /\
  (forall i j, i < length (g_elems G) -> j < length (g_elems G) -> same_map n (el G i) (el G j) -> i = j) /\ hd_error (g_elems G) = Some EId.
Proof.
  destruct (elements_main extent pbc Bx) as (G' & E & _ & _ & H & A & B & C). rewrite HG in E. injection E as <-. split; [|split; [|split; [exact C|exact H]]].
  - intros i Hi. destruct (A i Hi) as (Gd & s & f & S & K & F). split; [exact Gd|]. exists s, f. auto.
  - intros s f S K. exact (B s f c S K Hc).
Qed.
Lemma eye_cart v : forall d, d < n -> cartesian n eye v d = v d.
Proof. intros d Hd. unfold cartesian. rewrite eye_r by exact Hd. reflexivity. Qed.
Lemma map_of_pre a v : good n a -> forall d, d < n -> match a with EId => v d | ESym q => preimage q v d end = map_of L (as_psym a) v d.
Proof.
  intros Gd d Hd. destruct a as [|q]; [reflexivity|]. destruct Gd as [Eq _]. cbn [as_psym map_of]. rewrite Ldim. rewrite <- Eq at 1.
  rewrite <- basis_form_main. unfold components. rewrite Eq. rewrite (qs_ext n _ (fun k => preimage q v k * eye k d)%Qc).
  - rewrite eye_r by exact Hd. reflexivity.
  - intros k Hk. f_equal. unfold preimage. rewrite Eq. apply qs_ext. intros j Hj. now rewrite eye_cart.
Qed.
(** the map used by the space group is the inverse *)
Lemma inverse_map a s f t : good n a -> axis_perm n s -> axis_perm n t -> (forall i, i < n -> t (s i) = i) -> (forall i, i < n -> s (t i) = i) ->
  acts_as n a (box_map c s f) -> forall v d, d < n -> map_of L (as_psym a) v d = box_map c t (fun j => f (t j)) v d.
Proof.
  intros Gd S T E1 E2 A v d Hd. set (w := map_of L (as_psym a) v).
  assert (B : veq n (e_act a w) v).
  { intros i Hi. destruct a as [|q]; [reflexivity|]. destruct Gd as [Eq Pr]. cbn [e_act]. transitivity (act q (preimage q v) i).
    - unfold act. rewrite Eq. f_equal. apply mvec_ext; [exact Hi|intros ? ? ? ?; reflexivity|]. intros k Hk. symmetry. exact (map_of_pre (ESym q) v (conj Eq Pr) k Hk).
    - destruct (preimage_both q v Pr) as [X _]. apply X. now rewrite Eq. }
  assert (C : forall i, i < n -> box_map c s f w i = v i) by (intros i Hi; rewrite <- (B i Hi); symmetry; now apply A).
  change (w d = box_map c t (fun j => f (t j)) v d). unfold box_map. rewrite <- (C (t d) (proj1 T d Hd)). unfold box_map. rewrite (E2 d Hd).
  transitivity (c d + sgn (f (t d)) * sgn (f (t d)) * (w d - c d))%Qc; [rewrite sgn_sq; ring|ring].
Qed.
Notation l := (map as_psym (g_elems G)).
Lemma l_params i : i < length (g_elems G) -> exists s f t, axis_perm n s /\ axis_perm n t /\ keeps_box extent pbc t /\ (forall i, i < n -> t (s i) = i) /\ (forall i, i < n -> s (t i) = i) /\
  acts_as n (el G i) (box_map c s f) /\ forall v d, d < n -> map_of L (as_psym (el G i)) v d = box_map c t (fun j => f (t j)) v d.
Proof.
  intros Hi. destruct G_all as (A & _). destruct (A i Hi) as (Gd & s & f & S & K & F). destruct (inverse_index n s S) as (t & T & E1 & E2).
  exists s, f, t. split; [exact S|]. split; [exact T|]. split; [eapply keeps_inv; eauto|]. split; [exact E1|]. split; [exact E2|]. split; [exact F|]. now apply (inverse_map _ s).
Qed.
Lemma l_in q : In q l -> exists t g, axis_perm n t /\ keeps_box extent pbc t /\ forall v d, d < n -> map_of L q v d = box_map c t g v d.
Proof.
  intros H. apply in_map_iff in H. destruct H as (a & <- & H). apply (In_nth _ _ EId) in H. destruct H as (i & Hi & <-).
  destruct (l_params i Hi) as (s & f & t & _ & T & K & _ & _ & _ & F). exists t, (fun j => f (t j)). auto.
Qed.
Lemma l_has t g : axis_perm n t -> keeps_box extent pbc t -> exists q, In q l /\ forall v d, d < n -> map_of L q v d = box_map c t g v d.
Proof.
  intros T K. destruct (inverse_index n t T) as (s & S & E1 & E2). destruct G_all as (A & B & _).
  destruct (B s (fun i => g (s i)) S ltac:(eapply keeps_inv; eauto)) as (i & Hi & F). exists (as_psym (el G i)). split; [apply in_map, nth_In, Hi|].
  intros v d Hd. rewrite (inverse_map (el G i) s (fun i => g (s i)) t (proj1 (A i Hi)) S T E2 E1 F v d Hd). unfold box_map. now rewrite (E1 d Hd).
Qed.
Lemma l_symmetry q : In q l -> box_symmetry L (map_of L q).
Proof.
  intros H. destruct (l_in q H) as (t & g & T & K & F). apply (symmetry_ext L (box_map c t g)); [|now apply bm_symmetry].
  intros v d Hd. rewrite Ldim in Hd. symmetry. now apply F.
Qed.
Lemma l_group : group_mod_cells L l.
Proof.
  split; [|split; [|split]].
  - intros H. apply map_eq_nil in H. destruct G_all as (_ & _ & _ & X). rewrite H in X. discriminate.
  - intros q H. destruct (l_in q H) as (t & g & T & K & F). intros m Hm. destruct (bm_integral t g T K m Hm) as (m' & Dm & E). exists m'. split; [exact Dm|].
    intros v d Hd. specialize (E v d Hd). rewrite Ldim in Hd. rewrite (F _ d Hd), E. unfold vplus. now rewrite F.
  - intros q r Hq Hr. destruct (l_in q Hq) as (t & g & T & K & F), (l_in r Hr) as (t' & g' & T' & K' & F').
    destruct (l_has (fun i => t (t' i)) (fun i => xorb (g' i) (g (t' i))) (perm_comp n t' t T' T) (keeps_comp extent pbc t' t T' K' K)) as (x & Hx & Fx).
    exists x, (fun _ => 0%Z). split; [exact Hx|]. split; [intros d _ _; reflexivity|]. intros v d Hd. rewrite Ldim in Hd. rewrite (F' _ d Hd).
    rewrite (box_ext n c t' g' _ (box_map c t g v) d T' Hd) by (intros i Hi; now apply F). rewrite (box_comp n) by auto. unfold vplus. rewrite (Fx v d Hd), zc_0. ring.
  - intros q Hq. destruct (l_in q Hq) as (t & g & T & K & F). destruct (inverse_index n t T) as (s & S & E1 & E2).
    destruct (l_has s (fun i => g (s i)) S ltac:(eapply keeps_inv; eauto)) as (x & Hx & Fx). exists x, (fun _ => 0%Z). split; [exact Hx|]. split; [intros d _ _; reflexivity|].
    intros v d Hd. rewrite Ldim in Hd. rewrite (Fx _ d Hd). rewrite (box_ext n c s _ _ (box_map c t g v) d S Hd) by (intros i Hi; now apply F).
    unfold vplus. rewrite zc_0. unfold box_map. rewrite (E2 d Hd). transitivity (c d + sgn (g (s d)) * sgn (g (s d)) * (v d - c d))%Qc; [ring|]. rewrite sgn_sq. ring.
Qed.
Lemma Lproper : proper_lattice L.
Proof. exact (grid_proper extent pbc Bx Nb L HL Sm). Qed.
Lemma Lfull : full_lattice L.
Proof. exact (grid_full extent pbc Bx Nb L HL). Qed.
Lemma Ledges : edges_at L 1%Qc.
Proof. exact (grid_edges extent pbc Bx Nb L HL). Qed.
Lemma Dpos : 0 < dimension L.
Proof. rewrite Ldim. exact (n_pos extent pbc Nb). Qed.

(** combined with a displacement *)
Definition moved (s : nat -> nat) (f : nat -> bool) (m : nat -> Z) : vec -> vec := fun v => box_map c s f (back m v).
Lemma back_isometry m : isometry L (back m).
Proof. intros u v. rewrite !(qform_grid extent pbc Bx Nb L HL). apply qs_ext. intros d Hd. unfold vdiff, back. ring. Qed.
Lemma back_maps m : displacement L m -> maps_sites L (back m).
Proof. intros H. destruct (back_symmetry L Lproper Lfull m H) as [X _]. exact X. Qed.
Lemma moved_keeps s f m q : axis_perm n s -> keeps_box extent pbc s -> displacement L m -> belongs L (moved s f m) q ->
  forall i j, i < N -> j < N -> i <> j -> (joined L i j <-> joined L (nth i q 0) (nth j q 0)).
Proof.
  intros S K Dm B. destruct (inverse_index n s S) as (t & T & E1 & E2). assert (Kt : keeps_box extent pbc t) by (eapply keeps_inv; eauto).
  set (h := fun v => back (fun d => - m d)%Z (box_map c t (fun j => f (t j)) v)). assert (Dm' := displacement_opp L m Dm).
  apply (edges_kept L (moved s f m) h q 1%Qc).
  - exact Lproper.
  - exact Ledges.
  - split; [intros v v' H; apply bm_respects; auto; now apply (proj1 (back_maps m Dm))|]. intros i Hi. destruct (proj2 (back_maps m Dm) i Hi) as (k & Hk & E).
    destruct (bm_sites s f S K k Hk) as (k' & Hk' & E'). exists k'. split; [exact Hk'|]. eapply same_trans; [apply bm_respects; eauto|exact E'].
  - split; [intros v v' H; apply (proj1 (back_maps _ Dm')); now apply bm_respects|]. intros i Hi. destruct (bm_sites t (fun j => f (t j)) T Kt i Hi) as (k & Hk & E).
    destruct (proj2 (back_maps _ Dm') k Hk) as (k' & Hk' & E'). exists k'. split; [exact Hk'|]. eapply same_trans; [apply (proj1 (back_maps _ Dm')); eauto|exact E'].
  - intros v. unfold h, moved. split.
    + eapply same_trans; [apply (proj1 (back_maps _ Dm')), (bm_undo s f t S T E1 E2)|]. apply same_ext. intros d Hd. unfold back. rewrite zc_opp. ring.
    + eapply same_trans; [|apply (bm_undo s f t S T E1 E2)]. apply bm_respects; auto. apply same_ext. intros d Hd. unfold back. rewrite zc_opp. ring.
  - intros u v. unfold moved. rewrite bm_isometry by auto. apply back_isometry.
  - intros u v. unfold h. rewrite back_isometry. now apply bm_isometry.
  - exact B.
Qed.

Lemma space_main : exists H, sg_space_group L l = Ok H /\ degree H = N /\ is_group N (perms H) /\ length (perms H) = length (tuples L (seq 0 n)) * length (g_elems G) /\
  (forall q, In q (perms H) <-> exists s f m, axis_perm n s /\ keeps_box extent pbc s /\ displacement L m /\ belongs L (moved s f m) q) /\
  (forall q, In q (perms H) -> forall i j, i < N -> j < N -> i <> j -> (joined L i j <-> joined L (nth i q 0) (nth j q 0))) /\
  Forall2 (fun q tp => belongs L (fun v => map_of L (snd tp) (back (shift_of (seq 0 n) (fst tp)) v)) q) (perms H) (list_prod (tuples L (seq 0 n)) l).
Proof.
  destruct (space_group_main L Lproper Lfull l l_group l_symmetry Dpos) as (H & E & Dg & _ & F & Gr). rewrite Ldim in F.
  assert (F' : Forall2 (fun q tp => belongs L (fun v => map_of L (snd tp) (back (shift_of (seq 0 n) (fst tp)) v)) q) (perms H) (list_prod (tuples L (seq 0 n)) l)).
  { unfold perms. rewrite Dg. revert F. generalize (list_prod (tuples L (seq 0 n)) l). generalize (elems H). induction 1; cbn [map]; constructor; auto. }
  assert (Iff : forall q, In q (perms H) <-> exists s f m, axis_perm n s /\ keeps_box extent pbc s /\ displacement L m /\ belongs L (moved s f m) q).
  { intros q. split.
    - intros Hq. destruct (forall2_in_l _ _ _ _ F' Hq) as ((t, x) & Ht & B). cbn [fst snd] in B. apply in_prod_iff in Ht. destruct Ht as [Ht Hx].
      destruct (l_in x Hx) as (s & f & S & K & Fx). exists s, f, (shift_of (seq 0 n) t). split; [exact S|]. split; [exact K|]. rewrite <- Ldim in Ht. split.
      + pose proof (tuple_disp L Lproper t Ht) as X. now rewrite Ldim in X.
      + eapply belongs_ext; [|exact B]. intros i Hi. apply same_ext. rewrite Ldim. intros d Hd. unfold moved. now rewrite Fx.
    - intros (s & f & m & S & K & Dm & B). destruct (l_has s f S K) as (x & Hx & Fx). destruct (rep L Lproper m Dm) as (t & Ht & Et). rewrite Ldim in Ht, Et.
      destruct (forall2_in_r _ _ _ (t, x) F' (proj2 (in_prod_iff _ _ _ _) (conj Ht Hx))) as (q' & Hq' & B'). cbn [fst snd] in B'.
      replace q with q'; [exact Hq'|]. apply (belongs_unique L Lproper (moved s f m)); [|exact B]. eapply belongs_ext; [|exact B']. intros i Hi. cbn beta.
      apply same_trans with (v' := box_map c s f (back (shift_of (seq 0 n) t) (place L i))).
      + apply same_ext. rewrite Ldim. intros d Hd. now apply Fx.
      + apply bm_respects; auto. apply same_sym, Et. }
  exists H. split; [exact E|]. split; [exact Dg|]. split; [exact Gr|]. split; [|split; [exact Iff|split; [|exact F']]].
  - pose proof (forall2_len _ _ _ F') as Len. rewrite Len, prod_length, map_length. reflexivity.
  - intros q Hq. apply Iff in Hq. destruct Hq as (s & f & m & S & K & Dm & B). now apply (moved_keeps s f m).
Qed.

(** ** different elements *)
Hypothesis Wide : forall d, d < n -> (2 <= e d)%Z /\ (p d = true -> (3 <= e d)%Z).
Lemma moved_differ s f m s' f' m' : axis_perm n s -> keeps_box extent pbc s -> axis_perm n s' -> keeps_box extent pbc s' ->
  (forall i, i < N -> same_point L (moved s f m (place L i)) (moved s' f' m' (place L i))) ->
  forall d, d < n -> s d = s' d /\ f d = f' d /\ exists k, (p d = false -> k = 0%Z) /\ (m (s d) - m' (s d) = k * e d)%Z.
Proof.
  intros S K S' K' H d Hd.
  assert (X : forall z, (forall a, a < n -> (0 <= z a < e a)%Z) -> exists k, (p d = false -> k = 0%Z) /\
     ((if f d then ends d - (z (s d) - m (s d)) else z (s d) - m (s d)) = (if f' d then ends d - (z (s' d) - m' (s' d)) else z (s' d) - m' (s' d)) + k * e d)%Z).
  { intros z Hz. destruct (cell_find extent pbc Bx Nb L HL z Hz) as (i & Hi & Ci). destruct (H i Hi) as (k & A & B). rewrite Ldim in A, B. exists (k d). split; [intros Pd; apply A; [exact Hd|now rewrite Lpbc]|].
    specialize (B d Hd). rewrite Lext in B. unfold moved in B. rewrite !bm_eq in B by auto. unfold back in B. rewrite !(cell_place extent pbc Bx Nb L HL) in B by (try apply S; try apply S'; auto).
    rewrite !Ci in B by (try apply S; try apply S'; auto). apply zc_inj. rewrite zc_add. destruct (f d), (f' d); rewrite ?zc_sub; exact B. }
  destruct (Wide d Hd) as [W2 W3].
  destruct (X (fun _ => 0%Z)) as (k0 & K0 & E0); [intros a Ha; destruct (Wide a Ha); lia|].
  destruct (X (fun a => if Nat.eqb a (s d) then 1%Z else 0%Z)) as (k1 & K1 & E1); [intros a Ha; destruct (Wide a Ha); destruct (Nat.eqb a (s d)); lia|].
  rewrite Nat.eqb_refl in E1. destruct (Nat.eqb_spec (s' d) (s d)) as [Es|Es].
  - split; [now symmetry|]. rewrite Es in *. assert (Q : f d = f' d).
    { destruct (f d), (f' d); auto; exfalso; destruct (p d); try (specialize (W3 eq_refl); assert (k1 - k0 = 0 \/ k1 - k0 >= 1 \/ k1 - k0 <= -1)%Z by lia; nia); rewrite K0, K1 in * by reflexivity; lia. }
    split; [exact Q|]. rewrite <- Q in E0. destruct (f d).
    + exists k0. split; [exact K0|lia].
    + exists (- k0)%Z. split; [intros Pd; rewrite (K0 Pd); reflexivity|lia].
  - exfalso. assert (Y : (1 = (k1 - k0) * e d \/ -1 = (k1 - k0) * e d)%Z) by (destruct (f d), (f' d); lia).
    assert (k1 - k0 = 0 \/ k1 - k0 >= 1 \/ k1 - k0 <= -1)%Z by lia. nia.
Qed.
Lemma forall2_nodup {A B} (R : A -> B -> Prop) xs ys : Forall2 R xs ys -> NoDup ys -> (forall x y y', In y ys -> In y' ys -> R x y -> R x y' -> y = y') -> NoDup xs.
Proof.
  induction 1 as [|x y xs ys Rxy F IH]; intros Nd U; [constructor|]. inversion Nd as [|? ? Ny Nd']; subst. constructor.
  - intros Hx. destruct (forall2_in_l _ _ _ _ F Hx) as (y' & Hy' & R'). apply Ny. rewrite (U x y y'); auto; [now left|now right].
  - apply IH; auto. intros x' a b Ha Hb. apply U; now right.
Qed.
Lemma nodup_prod {A B} (xs : list A) (ys : list B) : NoDup xs -> NoDup ys -> NoDup (list_prod xs ys).
Proof.
  intros Hx Hy. induction Hx as [|x xs Nx _ IH]; cbn [list_prod]; [constructor|]. apply nodup_app; [|exact IH|].
  - apply FinFun.Injective_map_NoDup; [intros a b E; now injection E|exact Hy].
  - intros (a, b) H1 H2. apply in_map_iff in H1. destruct H1 as (y & E & _). injection E as <- <-. apply in_prod_iff in H2. now destruct H2.
Qed.
(** two listed symmetries with the same permutations, up to displacements, are the same one *)
Lemma listed_same i j m m' : i < length (g_elems G) -> j < length (g_elems G) ->
  (forall k, k < N -> same_point L (map_of L (as_psym (el G i)) (back m (place L k))) (map_of L (as_psym (el G j)) (back m' (place L k)))) ->
  i = j /\ forall d, d < n -> exists k, (p d = false -> k = 0%Z) /\ (m d - m' d = k * e d)%Z.
Proof.
  intros Hi Hj H. destruct (l_params i Hi) as (s & f & t & S & T & K & E1 & E2 & A & M), (l_params j Hj) as (s' & f' & t' & S' & T' & K' & E1' & E2' & A' & M').
  assert (X : forall d, d < n -> t d = t' d /\ f (t d) = f' (t' d) /\ exists k, (p d = false -> k = 0%Z) /\ (m (t d) - m' (t d) = k * e d)%Z).
  { apply (moved_differ t (fun j => f (t j)) m t' (fun j => f' (t' j)) m' T K T' K'). intros k Hk. unfold moved.
    apply same_trans with (v' := map_of L (as_psym (el G i)) (back m (place L k))); [apply same_ext; rewrite Ldim; intros d Hd; symmetry; now apply M|].
    eapply same_trans; [apply H, Hk|]. apply same_ext. rewrite Ldim. intros d Hd. now apply M'. }
  assert (Es : forall d, d < n -> s d = s' d /\ f d = f' d).
  { intros d Hd. assert (Hs : s' d < n) by now apply S'. destruct (X (s' d) Hs) as (Y1 & Y2 & _). rewrite (E1' d Hd) in Y1, Y2. rewrite Y1 in Y2. split; [|exact Y2].
    rewrite <- Y1 at 1. now apply E2. }
  split.
  - destruct G_all as (_ & _ & U & _). apply U; auto. intros x d Hd. rewrite (A x d Hd), (A' x d Hd). unfold box_map. destruct (Es d Hd) as [-> ->]. reflexivity.
  - intros d Hd. assert (Hs : s d < n) by now apply S. destruct (X (s d) Hs) as (_ & _ & k & Pk & Ek). rewrite (E1 d Hd) in Ek. exists k.
    pose proof (keeps_e t (s d) K Hs) as Ke. pose proof (keeps_p t (s d) K Hs) as Kp. rewrite (E1 d Hd) in Ke, Kp. rewrite Ke, Kp. auto.
Qed.
Lemma l_nodup : NoDup l.
Proof.
  apply (NoDup_nth _ PId). rewrite map_length. intros i j Hi Hj E. change PId with (as_psym EId) in E. rewrite !map_nth in E.
  destruct (listed_same i j (fun _ => 0%Z) (fun _ => 0%Z) Hi Hj) as [X _]; [|exact X]. intros k Hk. unfold el. rewrite E. apply same_refl.
Qed.
Lemma space_distinct H : sg_space_group L l = Ok H -> NoDup (perms H).
Proof.
  intros EH. destruct space_main as (H' & E & _ & _ & _ & _ & _ & F). rewrite EH in E. injection E as <-.
  apply (forall2_nodup _ _ _ F).
  - apply nodup_prod; [apply tuples_nodup|exact l_nodup].
  - intros q (t, x) (t', x') H1 H2 B B'. cbn [fst snd] in B, B'. apply in_prod_iff in H1, H2. destruct H1 as [Ht Hx], H2 as [Ht' Hx'].
    apply in_map_iff in Hx, Hx'. destruct Hx as (a & <- & Ha), Hx' as (a' & <- & Ha'). apply (In_nth _ _ EId) in Ha, Ha'. destruct Ha as (i & Hi & <-), Ha' as (j & Hj & <-).
    destruct (listed_same i j (shift_of (seq 0 n) t) (shift_of (seq 0 n) t') Hi Hj) as [-> X].
    { intros k Hk. eapply same_trans; [apply (proj2 B), Hk|]. apply same_sym, (proj2 B'), Hk. }
    f_equal. apply tuples_in in Ht, Ht'. assert (HD : forall a, In a (seq 0 n) -> a < dimension L) by (intros a Ha; apply in_seq in Ha; rewrite Ldim; lia).
    apply (shift_eq L (seq 0 n)).
    + apply seq_NoDup.
    + exact (forall2_len _ _ _ Ht).
    + exact (forall2_len _ _ _ Ht').
    + intros d Hd. pose proof (shift_range L (seq 0 n) t d (seq_NoDup _ _) HD Ht Hd) as R. pose proof (shift_range L (seq 0 n) t' d (seq_NoDup _ _) HD Ht' Hd) as R'.
      apply (steps_in L Lproper) in R, R'; [|now apply HD|now apply HD]. rewrite Lpbc, Lext in R, R'. assert (Hd' : d < n) by (apply in_seq in Hd; lia).
      destruct (X d Hd') as (k & Pk & Ek). destruct (p d); [|lia]. assert (k = 0 \/ k >= 1 \/ k <= -1)%Z by lia. nia.
Qed.
End Grid.
