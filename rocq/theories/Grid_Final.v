(** Proofs of C90: the statements. *)
From Coq Require Import List Arith Bool ZArith QArith Qcanon Permutation Lia.
From Verif Require Import Base BaseFacts Rings FloatCmp_Model FloatCmp_Proofs Lattice_Model Lattice_Spec LatGen_Model LatGen_Spec LatGen_Proofs LatGen_Look
  Group_Model Group_Spec Group_Proofs Lattice_Trans SpaceGp_Model SpaceGp_Spec SpaceGp_Proofs SpaceGp_Group SpaceGp_Space
  PointGp_Model PointGp_Spec PointGp_Lin PointGp_Proofs PointGp_Tables PointGp_Group
  Grid_Model Grid_Spec Grid_Proofs Grid_Group Grid_Lattice Grid_Sites Grid_Space LatGen_Ex.
Import ListNotations.
Open Scope nat_scope.

Lemma lattice_main extent pbc : boxed extent pbc -> has_neighbours extent pbc ->
  exists L cell, grid_lattice extent pbc = Ok L /\
  (forall k d, k < n_nodes L -> d < length extent -> place L k d = zc (cell k d) /\ (0 <= cell k d < nth d extent 0)%Z) /\
  (forall z, (forall d, d < length extent -> (0 <= z d < nth d extent 0)%Z) -> exists k, k < n_nodes L /\ forall d, d < length extent -> cell k d = z d) /\
  (forall j k, j < n_nodes L -> k < n_nodes L -> (forall d, d < length extent -> cell j d = cell k d) -> j = k) /\
  (forall i j, i < n_nodes L -> j < n_nodes L -> i <> j -> (joined L i j <-> box_neighbours extent pbc (cell i) (cell j))).
Proof.
  intros Bx Nb. destruct (grid_exists extent pbc Bx Nb) as (L & HL). exists L, (cell L). split; [exact HL|]. split; [|split; [|split]].
  - intros k d Hk Hd. split; [now apply (cell_place extent pbc)|now apply (cell_range extent pbc)].
  - intros z Hz. now apply (cell_find extent pbc Bx Nb L HL).
  - intros j k. now apply (cell_inj extent pbc).
  - intros i j Hi Hj Ne. assert (X : joined L i j <-> linked_cells extent pbc (cell L i) (cell L j)).
    { destruct (L_all extent pbc Bx Nb L HL) as (_ & _ & _ & Ed). unfold joined. rewrite !Ed, !(adjacent_cells extent pbc Bx Nb L HL) by auto. split; [intros [[_ H]|[_ H]]; [exact H|now apply linked_sym]|].
      intros H. destruct (Nat.lt_ge_cases i j); [left|right]; (split; [lia|]); [exact H|now apply linked_sym]. }
    rewrite X. clear X. pose proof (fun d => cell_range extent pbc Bx Nb L HL i d Hi) as Ri. pose proof (fun d => cell_range extent pbc Bx Nb L HL j d Hj) as Rj.
    unfold e_ in Ri, Rj. split.
    + intros (m & Hm & a & Ha & Sa & So). unfold e_, p_ in *.
      assert (Eq : forall d, d < length extent -> d <> a -> cell L i d = cell L j d).
      { intros d Hd Na. specialize (So d Hd Na). specialize (Ri d Hd). specialize (Rj d Hd). assert (m d = 0 \/ m d >= 1 \/ m d <= -1)%Z by lia. nia. }
      assert (Na : cell L i a <> cell L j a).
      { intros E. apply Ne. apply (cell_inj extent pbc Bx Nb L HL); auto. intros d Hd. destruct (Nat.eq_dec d a) as [->|Nd]; auto. }
      exists a. split; [exact Ha|]. split; [exact Eq|]. specialize (Ri a Ha). specialize (Rj a Ha). specialize (Hm a Ha). destruct (nth a pbc false).
      * assert (m a = 0 \/ m a = 1 \/ m a = -1 \/ m a >= 2 \/ m a <= -2)%Z as [Em|[Em|[Em|[Em|Em]]]] by lia; [left; rewrite Em in Sa; lia| | | |].
        -- right. split; [reflexivity|]. rewrite Em in Sa. lia.
        -- right. split; [reflexivity|]. rewrite Em in Sa. lia.
        -- exfalso. nia.
        -- exfalso. nia.
      * left. rewrite (Hm eq_refl) in Sa. lia.
    + intros (a & Ha & Eq & Sa). exists (fun d => if Nat.eqb d a then (if Z.eqb (Z.abs (cell L i a - cell L j a)) 1 then 0 else Z.sgn (cell L i a - cell L j a))%Z else 0%Z). unfold e_, p_. split.
      * intros d Hd Pd. destruct (Nat.eqb_spec d a) as [->|]; [|reflexivity]. destruct Sa as [Sa|[Pa _]]; [|rewrite Pa in Pd; discriminate]. now rewrite Sa.
      * exists a. split; [exact Ha|]. rewrite Nat.eqb_refl. split.
        -- destruct (Z.eqb_spec (Z.abs (cell L i a - cell L j a)) 1) as [E|E]; [lia|]. destruct Sa as [Sa|[_ Sa]]; [contradiction|]. specialize (Ri a Ha). specialize (Rj a Ha).
           destruct (Z.abs_spec (cell L i a - cell L j a)) as [[Y1 Y2]|[Y1 Y2]]; [rewrite Z.sgn_pos|rewrite Z.sgn_neg]; try lia.
           destruct (Z.eq_dec (cell L i a) (cell L j a)) as [E0|]; [|lia]. exfalso. apply Ne. apply (cell_inj extent pbc Bx Nb L HL); auto. intros d Hd. destruct (Nat.eq_dec d a) as [->|Nd]; auto.
        -- intros d Hd Nd. destruct (Nat.eqb_spec d a); [contradiction|]. rewrite (Eq d Hd Nd). lia.
Qed.

Lemma refused_main extent pbc : boxed extent pbc -> (forall d, d < length extent -> nth d extent 0%Z = 1%Z /\ nth d pbc false = false) -> 0 < length extent -> grid_lattice extent pbc = Err ValueError.
Proof.
  intros Bx H Hn. apply no_neighbours; [now apply grid_valid|]. intros u v (u' & v' & (NP & _) & _). pose proof NP as (Au & Av & _). apply around_nth in Au, Av; [|exact Bx|exact Bx].
  destruct Au as (u0 & -> & Lu & Ru), Av as (v0 & -> & Lv & Rv). apply nearest_grid in NP; auto; [|apply around_nth; [exact Bx|]; exists u0; auto|apply around_nth; [exact Bx|]; exists v0; auto].
  destruct NP as (a & Ha & Sa & _). specialize (Ru a Ha). specialize (Rv a Ha). unfold p_, e_ in *. destruct (H a Ha) as [E P]. rewrite E, P in *. lia.
Qed.

Lemma space_final extent pbc : boxed extent pbc -> has_neighbours extent pbc -> (forall d, d < length extent -> (nth d extent 0 < 3326400)%Z) ->
  exists L G H, grid_lattice extent pbc = Ok L /\ grid_point_group extent pbc = Ok G /\ sg_space_group L (map as_psym (g_elems G)) = Ok H /\
  degree H = n_nodes L /\ is_group (n_nodes L) (perms H) /\
  (forall q, In q (perms H) -> forall i j, i < n_nodes L -> j < n_nodes L -> i <> j -> (joined L i j <-> joined L (nth i q 0) (nth j q 0))) /\
  (forall c, centre extent pbc c -> forall q, In q (perms H) <->
     exists s f m, axis_perm (length extent) s /\ keeps_box extent pbc s /\ displacement L m /\ belongs L (fun v => box_map c s f (back m v)) q) /\
  ((forall d, d < length extent -> (2 <= nth d extent 0)%Z /\ (nth d pbc false = true -> (3 <= nth d extent 0)%Z)) -> NoDup (perms H)).
Proof.
  intros Bx Nb Sm. destruct (grid_exists extent pbc Bx Nb) as (L & HL). destruct (elements_main extent pbc Bx) as (G & HG & _).
  pose proof (origin_centre extent pbc) as O. destruct (space_main extent pbc Bx Nb Sm L HL _ O G HG) as (H & E & Dg & Gr & _ & _ & Au & _).
  exists L, G, H. split; [exact HL|]. split; [exact HG|]. split; [exact E|]. split; [exact Dg|]. split; [exact Gr|]. split; [exact Au|]. split.
  - intros c Hc. destruct (space_main extent pbc Bx Nb Sm L HL c Hc G HG) as (H' & E' & _ & _ & _ & X & _). rewrite E in E'. injection E' as <-. exact X.
  - intros W. exact (space_distinct extent pbc Bx Nb Sm L HL _ O G HG W H E).
Qed.
