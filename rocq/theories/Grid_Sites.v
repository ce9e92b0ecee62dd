(** Proofs of C90: sites and edges of a grid. *)
From Coq Require Import List Arith Bool ZArith QArith Qcanon Qabs Permutation Lia Lqa.
From Verif Require Import Base BaseFacts Rings FloatCmp_Model FloatCmp_Spec FloatCmp_Proofs Lattice_Model Lattice_Spec LatGen_Model LatGen_Spec LatGen_Proofs LatGen_Look
  PointGp_Model PointGp_Spec PointGp_Lin PointGp_Proofs PointGp_Tables PointGp_Group
  Group_Model Group_Spec SpaceGp_Model SpaceGp_Spec SpaceGp_Proofs SpaceGp_Group SpaceGp_Space Grid_Model Grid_Spec Grid_Lattice.
Import ListNotations.
Open Scope nat_scope.

Lemma nth_tab {A} (f : nat -> A) n d x : d < n -> nth d (map f (seq 0 n)) x = f d.
Proof. intros H. rewrite (nth_indep _ x (f 0)) by (rewrite map_length, seq_length; exact H). rewrite map_nth, seq_nth by exact H. reflexivity. Qed.
Lemma tab_len {A} (f : nat -> A) n : length (map f (seq 0 n)) = n.
Proof. now rewrite map_length, seq_length. Qed.

Section Grid.
Variables (extent : list Z) (pbc : list bool).
Hypothesis Bx : boxed extent pbc.
Notation n := (length extent).
Notation g := (grid_geometry extent pbc).
Notation e := (e_ extent).
Notation p := (p_ pbc).
(** some axis has neighbours *)
Definition has_neighbours : Prop := exists d, d < n /\ ((2 <= e d)%Z \/ p d = true).
Hypothesis Nb : has_neighbours.

Lemma n_pos : 0 < n.
Proof. destruct Nb as (d & Hd & _). lia. Qed.
Lemma box_around_c c0 : length c0 = n -> (forall d, d < n -> (0 <= nth d c0 0 < e d)%Z) -> around g (c0 ++ [0%Z]).
Proof. intros L F. apply around_nth; [exact Bx|]. exists c0. split; [reflexivity|]. split; [exact L|]. intros d Hd. specialize (F d Hd). destruct (p d); lia. Qed.
(** images that are one step apart are linked *)
Lemma adjacent_step u v : length u = n -> length v = n -> (forall d, d < n -> (0 <= nth d u 0 < e d)%Z) -> around g (v ++ [0%Z]) ->
  one_step n (fun d => nth d u 0%Z) (fun d => nth d v 0%Z) -> adjacent g (u ++ [0%Z]) (folded g (v ++ [0%Z])).
Proof.
  intros Lu Lv Bu Av S. exists (u ++ [0%Z]), (v ++ [0%Z]). assert (BU : of_box g (u ++ [0%Z])) by (apply box_nth; exists u; auto).
  split; [split; [|now left]|split; [|reflexivity]].
  - apply nearest_grid; auto; [apply n_pos|now apply box_around_c].
  - apply folded_id; exact BU.
Qed.
Lemma every_neighbour c : of_box g c -> exists d, adjacent g c d.
Proof.
  intros B. apply box_nth in B. destruct B as (c0 & -> & L & F). destruct Nb as (a & Ha & HN).
  assert (X : exists k, (k = 1 \/ k = -1)%Z /\ if p a then (-1 <= nth a c0 0 + k <= e a)%Z else (0 <= nth a c0 0 + k < e a)%Z).
  { pose proof (F a Ha) as Fa. destruct (p a) eqn:Pa; [exists 1%Z; lia|]. destruct HN as [HN|HN]; [|rewrite HN in Pa; discriminate].
    destruct (Z.eq_dec (nth a c0 0%Z) 0); [exists 1%Z|exists (-1)%Z]; lia. }
  destruct X as (k & Hk & Hr). set (v := map (fun d => if Nat.eqb d a then (nth d c0 0 + k)%Z else nth d c0 0%Z) (seq 0 n)).
  assert (Nv : forall d, d < n -> nth d v 0%Z = if Nat.eqb d a then (nth d c0 0 + k)%Z else nth d c0 0%Z).
  { intros d Hd. unfold v. set (h := fun d => if Nat.eqb d a then (nth d c0 0 + k)%Z else nth d c0 0%Z). now rewrite (nth_tab h). }
  exists (folded g (v ++ [0%Z])). apply adjacent_step; auto; [apply tab_len| |].
  - apply around_nth; [exact Bx|]. exists v. split; [reflexivity|]. split; [apply tab_len|]. intros d Hd. rewrite Nv by exact Hd. destruct (Nat.eqb_spec d a) as [->|]; [exact Hr|].
    specialize (F d Hd). destruct (p d); lia.
  - exists a. split; [exact Ha|]. split; [rewrite Nv, Nat.eqb_refl by exact Ha; lia|]. intros d Hd Ne. rewrite Nv by exact Hd. destruct (Nat.eqb_spec d a); [contradiction|reflexivity].
Qed.

Lemma grid_exists : exists L, grid_lattice extent pbc = Ok L.
Proof.
  unfold grid_lattice. destruct (gen_main g (grid_valid _ _ Bx)) as [A _].
  assert (B : of_box g (repeat 0%Z n ++ [0%Z])).
  { apply box_nth. exists (repeat 0%Z n). split; [reflexivity|]. split; [apply repeat_length|]. intros d Hd. rewrite nth_repeat. pose proof (ext_pos _ _ Bx d Hd). lia. }
  destruct (every_neighbour _ B) as (d & Hd). destruct A as (L & E & _); [eauto|]. now exists L.
Qed.

Variable L : glattice.
Hypothesis HL : grid_lattice extent pbc = Ok L.
Notation N := (n_nodes L).
Lemma L_all : gl_geom L = g /\ (forall c, In c (gl_sites L) <-> of_box g c) /\ NoDup (gl_sites L) /\
  (forall i j, In (i, j) (gl_edges L) <-> i < j < N /\ adjacent g (nth i (gl_sites L) []) (nth j (gl_sites L) [])).
Proof.
  destruct (L_facts g L (grid_valid _ _ Bx) HL) as (Eg & Nd & Box). destruct (gen_main g (grid_valid _ _ Bx)) as [A _].
  assert (B : of_box g (repeat 0%Z n ++ [0%Z])).
  { apply box_nth. exists (repeat 0%Z n). split; [reflexivity|]. split; [apply repeat_length|]. intros d Hd. rewrite nth_repeat. pose proof (ext_pos _ _ Bx d Hd). lia. }
  destruct (every_neighbour _ B) as (d & Hd). destruct A as (L' & E & _ & _ & Si & _ & Ed); [eauto|].
  unfold grid_lattice in HL. rewrite HL in E. injection E as <-. split; [exact Eg|]. split; [|split; [exact Nd|exact Ed]].
  intros c. split; [apply Box|]. intros H. apply Si. now apply every_neighbour.
Qed.
Lemma L_dim : dimension L = n.
Proof. unfold dimension. destruct L_all as (-> & _). reflexivity. Qed.
Lemma L_pbc d : nth d (g_pbc (gl_geom L)) false = p d.
Proof. destruct L_all as (-> & _). reflexivity. Qed.
Lemma L_ext d : nth d (g_extent (gl_geom L)) 0%Z = e d.
Proof. destruct L_all as (-> & _). reflexivity. Qed.

(** the cell of a site *)
Definition cell (k d : nat) : Z := nth d (removelast (nth k (gl_sites L) [])) 0%Z.
Lemma cell_site k : k < N -> exists c0, nth k (gl_sites L) [] = c0 ++ [0%Z] /\ length c0 = n /\ (forall d, cell k d = nth d c0 0%Z) /\ forall d, d < n -> (0 <= cell k d < e d)%Z.
Proof.
  intros Hk. destruct L_all as (_ & Si & _). assert (B : of_box g (nth k (gl_sites L) [])) by (apply Si, nth_In; exact Hk).
  apply box_nth in B. destruct B as (c0 & E & Lc & F). exists c0. split; [exact E|]. split; [exact Lc|]. assert (X : forall d, cell k d = nth d c0 0%Z) by (intros d; unfold cell; now rewrite E, removelast_last).
  split; [exact X|]. intros d Hd. rewrite X. now apply F.
Qed.
Lemma cell_range k d : k < N -> d < n -> (0 <= cell k d < e d)%Z.
Proof. intros Hk Hd. destruct (cell_site k Hk) as (_ & _ & _ & _ & F). auto. Qed.
Lemma cell_place k d : k < N -> d < n -> place L k d = zc (cell k d).
Proof.
  intros Hk Hd. destruct L_all as (Eg & _). destruct (cell_site k Hk) as (c0 & E & Lc & X & _). unfold place, pos_vec. rewrite Eg, E.
  pose proof (grid_frac extent pbc c0 Lc) as F. rewrite X. unfold zc. apply Qc_is_canon. rewrite !Qc_of_this.
  assert (G : forall l l' d, Forall2 Qeq l l' -> (nth d l 0 == nth d l' 0)%Q). { intros l l' d' H. revert d'. induction H; intros [|d']; cbn; auto; reflexivity. }
  rewrite (G _ _ d F). set (h := inject_Z). change 0%Q with (h 0%Z). rewrite map_nth. reflexivity.
Qed.
Lemma cell_find (z : nat -> Z) : (forall d, d < n -> (0 <= z d < e d)%Z) -> exists k, k < N /\ forall d, d < n -> cell k d = z d.
Proof.
  intros F. destruct L_all as (_ & Si & _). assert (B : of_box g (map z (seq 0 n) ++ [0%Z])).
  { apply box_nth. exists (map z (seq 0 n)). split; [reflexivity|]. split; [apply tab_len|]. intros d Hd. rewrite nth_tab by exact Hd. now apply F. }
  apply Si in B. apply (In_nth _ _ []) in B. destruct B as (k & Hk & E). exists k. split; [exact Hk|]. intros d Hd. unfold cell.
  change (nth k (gl_sites L) ([] : list Z) = map z (seq 0 n) ++ [0%Z]) in E. rewrite E, removelast_last. now apply nth_tab.
Qed.
Lemma cell_inj j k : j < N -> k < N -> (forall d, d < n -> cell j d = cell k d) -> j = k.
Proof.
  intros Hj Hk H. destruct L_all as (_ & _ & Nd & _). destruct (cell_site j Hj) as (c & Ej & Lj & Xj & _), (cell_site k Hk) as (c' & Ek & Lk & Xk & _).
  apply (proj1 (NoDup_nth (gl_sites L) []) Nd); auto. rewrite Ej, Ek. f_equal. apply (nth_ext _ _ 0%Z 0%Z); [lia|]. intros d Hd. rewrite <- Xj, <- Xk. apply H. lia.
Qed.
Lemma grid_full : full_lattice L.
Proof. intros c H. destruct L_all as (Eg & Si & _). rewrite Eg in H. now apply Si. Qed.

(** the same point, for integer components *)
Lemma same_int (z : nat -> Z) v k : k < N -> (forall d, d < n -> v d = zc (z d)) ->
  (forall d, d < n -> if p d then (z d mod e d = cell k d)%Z else z d = cell k d) -> same_point L v (place L k).
Proof.
  intros Hk V F. exists (fun d => if p d then (z d / e d)%Z else 0%Z). rewrite L_dim. split.
  - intros d Hd. rewrite L_pbc. now intros ->.
  - intros d Hd. rewrite L_ext, (V d Hd), cell_place by auto. rewrite <- zc_add. f_equal. specialize (F d Hd). pose proof (ext_pos _ _ Bx d Hd) as P.
    destruct (p d); [|lia]. rewrite <- F. rewrite (Z.mul_comm _ (e d)), Z.add_comm. apply Z.div_mod. lia.
Qed.
Lemma int_site (z : nat -> Z) v : (forall d, d < n -> v d = zc (z d)) -> (forall d, d < n -> p d = false -> (0 <= z d < e d)%Z) -> exists k, k < N /\ same_point L v (place L k).
Proof.
  intros V F. destruct (cell_find (fun d => if p d then (z d mod e d)%Z else z d)) as (k & Hk & Ck).
  - intros d Hd. pose proof (ext_pos _ _ Bx d Hd) as P. destruct (p d) eqn:Pd; [apply Z.mod_pos_bound; lia|now apply F].
  - exists k. split; [exact Hk|]. apply (same_int z); auto. intros d Hd. rewrite (Ck d Hd). destruct (p d); reflexivity.
Qed.

(** ** look-ups are accurate enough for boxes below 3326400 *)
Hypothesis Sm : forall d, d < n -> (e d < 3326400)%Z.
Lemma grid_separated : separated L.
Proof.
  intros j k Hj Hk Ne H. apply Ne, cell_inj; auto. intros d Hd. destruct L_all as (Eg & _).
  unfold same_position in H. rewrite Eg in H. specialize (H d Hd). cbn [g_pbc g_extent grid_geometry] in H. fold (p d) (e d) in H. destruct H as (m & Hm & A).
  destruct (cell_site j Hj) as (c & Ej & Lj & Xj & Rj), (cell_site k Hk) as (c' & Ek & Lk & Xk & Rk). specialize (Rj d Hd). specialize (Rk d Hd).
  rewrite Ej, Ek in A. pose proof (grid_frac extent pbc c Lj) as F. pose proof (grid_frac extent pbc c' Lk) as F'.
  assert (G : forall l l' d, Forall2 Qeq l l' -> (nth d l 0 == nth d l' 0)%Q). { intros l l' d' H. revert d'. induction H; intros [|d']; cbn; auto; reflexivity. }
  assert (IN : forall l, nth d (map inject_Z l) 0%Q = inject_Z (nth d l 0%Z)). { intros l. set (h := inject_Z). change 0%Q with (h 0%Z). apply map_nth. }
  rewrite (G _ _ d F), (G _ _ d F'), !IN, <- Xj, <- Xk in A. set (x := cell j d) in *. set (y := cell k d) in *. set (E := e d) in *.
  assert (Pe : (0 < inject_Z E)%Q) by (change 0%Q with (inject_Z 0); rewrite <- Zlt_Qlt; lia).
  assert (A' : (Qabs (inject_Z (x - y - m * E)) <= width * inject_Z E)%Q).
  { setoid_replace (inject_Z (x - y - m * E)) with ((inject_Z x / inject_Z E - inject_Z y / inject_Z E - inject_Z m) * inject_Z E)%Q.
    - rewrite Qabs_Qmult, (Qabs_pos (inject_Z E)) by lra. apply Qmult_le_compat_r; [exact A|lra].
    - unfold Zminus. rewrite !inject_Z_plus, !inject_Z_opp, inject_Z_mult. field. lra. }
  assert (W : (width * inject_Z E < 1)%Q).
  { specialize (Sm d Hd). fold E in Sm. unfold width. assert (inject_Z E < 3326400)%Q by (change 3326400%Q with (inject_Z 3326400); rewrite <- Zlt_Qlt; exact Sm). lra. }
  assert (Z0 : (x - y - m * E = 0)%Z).
  { change (Qabs (inject_Z (x - y - m * E))) with (inject_Z (Z.abs (x - y - m * E))) in A'.
    assert (inject_Z (Z.abs (x - y - m * E)) < inject_Z 1)%Q by (change (inject_Z 1) with 1%Q; lra). rewrite <- Zlt_Qlt in H. lia. }
  destruct (Z.eq_dec m 0) as [->|Nm]; [lia|]. exfalso. nia.
Qed.
Lemma grid_proper : proper_lattice L.
Proof. exists g. split; [apply grid_valid, Bx|]. split; [apply grid_shaped|]. split; [exact HL|exact grid_separated]. Qed.

(** ** edges *)
Lemma zc_mul a b : zc (a * b) = (zc a * zc b)%Qc.
Proof. unfold zc. apply Qc_is_canon. unfold Qcmult. rewrite !Qc_of_this. now rewrite inject_Z_mult. Qed.
Lemma qform_grid v : qform L v = qs n (fun d => v d * v d)%Qc.
Proof.
  unfold qform. rewrite L_dim. apply qs_ext. intros d Hd. destruct L_all as (-> & _). cbn [grid_geometry g_gram].
  assert (X : forall k, k < n -> Q2Qc (nth k (nth d (map (fun i => map (fun j => if Nat.eqb i j then 1%Q else 0%Q) (seq 0 n)) (seq 0 n)) []) 0%Q) = eye d k).
  { intros k Hk. rewrite (nth_tab (fun i => map (fun j => if Nat.eqb i j then 1%Q else 0%Q) (seq 0 n)) n d) by exact Hd. rewrite (nth_tab (fun j => if Nat.eqb d j then 1%Q else 0%Q)) by exact Hk.
    unfold eye. destruct (Nat.eqb d k); apply Qc_is_canon; reflexivity. }
  rewrite (qs_ext n _ (fun k => eye d k * (v d * v k))%Qc) by (intros k Hk; rewrite (X k Hk); ring). now rewrite eye_l.
Qed.
Lemma zsq_tab (f h : nat -> Z) m a : zsq (map f (seq a m)) (map h (seq a m)) = lsum zC (map (fun d => (f d - h d) * (f d - h d))%Z (seq a m)).
Proof. revert a. induction m as [|m IH]; intros a; [reflexivity|]. cbn [seq map zsq]. rewrite IH. reflexivity. Qed.
Lemma qs_zc m (f : nat -> Z) : qs m (fun d => zc (f d)) = zc (fsum zC m f) :> Qc.
Proof. induction m as [|m IH]; [unfold qs; cbn; symmetry; apply zc_0|]. rewrite qs_S, IH. cbn [fsum]. change (radd zC (fsum zC m f) (f m)) with (fsum zC m f + f m)%Z. symmetry. apply zc_add. Qed.
Lemma qform_step (f h : nat -> Z) u v : (forall d, d < n -> u d = zc (f d)) -> (forall d, d < n -> v d = zc (h d)) ->
  (qform L (vdiff u v) = 1%Qc <-> one_step n f h).
Proof.
  intros U V. rewrite qform_grid. rewrite (qs_ext n _ (fun d => zc ((f d - h d) * (f d - h d)))) by (intros d Hd; unfold vdiff; rewrite (U d Hd), (V d Hd), zc_mul, !zc_sub; reflexivity).
  rewrite qs_zc. replace (fsum zC n (fun d => ((f d - h d) * (f d - h d))%Z)) with (zsq (map f (seq 0 n)) (map h (seq 0 n))) by (rewrite zsq_tab, <- (fsum_lsum zC zC_laws); reflexivity). change 1%Qc with (zc 1).
  pose proof (zsq_1 (map f (seq 0 n)) (map h (seq 0 n)) ltac:(now rewrite !tab_len)) as Z1. rewrite tab_len in Z1.
  assert (S : one_step n (fun d => nth d (map f (seq 0 n)) 0%Z) (fun d => nth d (map h (seq 0 n)) 0%Z) <-> one_step n f h).
  { split; intros (d & Hd & A & B); exists d; (split; [exact Hd|]).
    - rewrite !nth_tab in A by exact Hd. split; [exact A|]. intros k Hk Nk. specialize (B k Hk Nk). now rewrite !nth_tab in B by exact Hk.
    - rewrite !nth_tab by exact Hd. split; [exact A|]. intros k Hk Nk. rewrite !nth_tab by exact Hk. now apply B. }
  rewrite <- S, <- Z1. split; [apply zc_inj|now intros ->].
Qed.
Lemma step_sym m f h : one_step m f h -> one_step m h f.
Proof. intros (d & Hd & A & B). exists d. split; [exact Hd|]. split; [lia|]. intros k Hk Nk. symmetry. now apply B. Qed.
Lemma step_ext m f h f' h' : (forall d, d < m -> f d = f' d) -> (forall d, d < m -> h d = h' d) -> one_step m f h -> one_step m f' h'.
Proof. intros F H (d & Hd & A & B). exists d. split; [exact Hd|]. rewrite <- (F d Hd), <- (H d Hd). split; [exact A|]. intros k Hk Nk. rewrite <- (F k Hk), <- (H k Hk). now apply B. Qed.
Lemma step_shift m f h a b : (forall d, d < m -> (a d - b d = f d - h d)%Z) -> one_step m f h -> one_step m a b.
Proof. intros E (d & Hd & A & B). exists d. split; [exact Hd|]. pose proof (E d Hd). split; [lia|]. intros k Hk Nk. pose proof (E k Hk). specialize (B k Hk Nk). lia. Qed.

(** cells joined by a step to an image *)
Definition linked_cells (f h : nat -> Z) : Prop := exists m, (forall d, d < n -> p d = false -> m d = 0%Z) /\ one_step n f (fun d => (h d + m d * e d)%Z).
Lemma adjacent_cells i j : i < N -> j < N -> (adjacent g (nth i (gl_sites L) []) (nth j (gl_sites L) []) <-> linked_cells (cell i) (cell j)).
Proof.
  intros Hi Hj. destruct (cell_site i Hi) as (ci & Ei & Li & Xi & Ri), (cell_site j Hj) as (cj & Ej & Lj & Xj & Rj). rewrite Ei, Ej. split.
  - intros (u & v & (NP & BB) & Fu & Fv). pose proof NP as (Au & Av & _). apply around_nth in Au, Av; [|exact Bx|exact Bx].
    destruct Au as (u0 & -> & Lu & Ru), Av as (v0 & -> & Lv & Rv).
    apply nearest_grid in NP; auto; [|apply n_pos|apply around_nth; [exact Bx|]; exists u0; auto|apply around_nth; [exact Bx|]; exists v0; auto].
    destruct (folded_nth extent pbc u0 Lu) as (u1 & Eu & Lu1 & Fu1). destruct (folded_nth extent pbc v0 Lv) as (v1 & Ev & Lv1 & Fv1).
    rewrite Eu in Fu. rewrite Ev in Fv. apply app_inj_tail in Fu, Fv. destruct Fu as [-> _], Fv as [-> _].
    destruct BB as [BB|BB]; apply box_nth in BB; destruct BB as (w & Ew & Lw & Fw); apply app_inj_tail in Ew; destruct Ew as [<- _].
    + exists (fun d => if p d then (nth d v0 0 / e d)%Z else 0%Z). split; [intros d Hd Pd; now rewrite Pd|]. eapply step_ext; [| |exact NP].
      * intros d Hd. rewrite Xi, Fu1 by exact Hd. symmetry. apply Z.mod_small. now apply Fw.
      * intros d Hd. rewrite Xj, Fv1 by exact Hd. specialize (Rv d Hd). pose proof (ext_pos _ _ Bx d Hd) as P. destruct (p d).
        -- rewrite (Z.mul_comm _ (e d)), Z.add_comm. apply Z.div_mod. lia.
        -- rewrite Z.mod_small by lia. lia.
    + exists (fun d => if p d then (- (nth d u0 0 / e d))%Z else 0%Z). split; [intros d Hd Pd; now rewrite Pd|]. eapply step_shift; [|exact NP].
      intros d Hd. cbn beta. rewrite Xi, Xj, Fu1, Fv1 by exact Hd. rewrite (Z.mod_small (nth d v0 0%Z)) by (now apply Fw). specialize (Ru d Hd). pose proof (ext_pos _ _ Bx d Hd) as P. destruct (p d).
      * pose proof (Z.div_mod (nth d u0 0%Z) (e d) ltac:(lia)). lia.
      * rewrite Z.mod_small by lia. lia.
  - intros (m & Hm & S). set (v := map (fun d => (cell j d + m d * e d)%Z) (seq 0 n)).
    assert (Nv : forall d, d < n -> nth d v 0%Z = (cell j d + m d * e d)%Z) by (intros d Hd; unfold v; now rewrite (nth_tab (fun d => (cell j d + m d * e d)%Z))).
    assert (Ef : folded g (v ++ [0%Z]) = cj ++ [0%Z]).
    { destruct (folded_nth extent pbc v (tab_len _ n)) as (v1 & Ev & Lv1 & Fv1). rewrite Ev. f_equal. apply (nth_ext _ _ 0%Z 0%Z); [lia|]. intros d Hd. assert (Hd' : d < n) by lia.
      rewrite Fv1, Nv by exact Hd'. rewrite Z_mod_plus_full, Xj. apply Z.mod_small. rewrite <- Xj. now apply Rj. }
    rewrite <- Ef. apply adjacent_step; auto.
    + apply tab_len.
    + intros d Hd. rewrite <- Xi. now apply Ri.
    + apply around_nth; [exact Bx|]. exists v. split; [reflexivity|]. split; [apply tab_len|]. intros d Hd. rewrite Nv by exact Hd. destruct S as (a & Ha & Sa & So).
      specialize (Ri d Hd). specialize (Rj d Hd). destruct (p d) eqn:Pd; [|rewrite (Hm d Hd Pd); lia].
      destruct (Nat.eq_dec d a) as [->|Na]; [lia|]. rewrite <- (So d Hd Na). lia.
    + eapply step_ext; [| |exact S]; [intros d Hd; apply Xi|intros d Hd; symmetry; now apply Nv].
Qed.
Lemma linked_sym f h : linked_cells f h -> linked_cells h f.
Proof.
  intros (m & Hm & S). exists (fun d => (- m d)%Z). split; [intros d Hd Pd; rewrite (Hm d Hd Pd); reflexivity|]. eapply step_shift; [|apply step_sym; exact S]. intros d Hd. cbn beta. lia.
Qed.
Lemma grid_edges : edges_at L 1%Qc.
Proof.
  intros i j Hi Hj Ne. assert (X : joined L i j <-> linked_cells (cell i) (cell j)).
  { destruct L_all as (_ & _ & _ & Ed). unfold joined. rewrite !Ed, !adjacent_cells by auto. split; [intros [[_ H]|[_ H]]; [exact H|now apply linked_sym]|].
    intros H. destruct (Nat.lt_ge_cases i j); [left|right]; (split; [lia|]); [exact H|now apply linked_sym]. }
  rewrite X. split.
  - intros (m & Hm & S). exists (fun d => zc (cell j d + m d * e d)). split.
    + exists m. rewrite L_dim. split; [intros d Hd; rewrite L_pbc; now apply Hm|]. intros d Hd. rewrite L_ext, cell_place by auto. apply zc_add.
    + apply (qform_step (cell i) (fun d => (cell j d + m d * e d)%Z)); auto. intros d Hd. now apply cell_place.
  - intros (v & (m & Hm & V) & Q). rewrite L_dim in Hm, V. exists m. split; [intros d Hd; rewrite <- L_pbc; now apply Hm|].
    apply (qform_step (cell i) (fun d => (cell j d + m d * e d)%Z) (place L i) v); auto.
    + intros d Hd. now apply cell_place.
    + intros d Hd. rewrite (V d Hd), L_ext, cell_place by auto. symmetry. apply zc_add.
Qed.
End Grid.
