(** Proofs behind C85: translations, look-ups, offsets, wave vectors. *)
From Coq Require Import List Arith Bool ZArith QArith Qabs Sorted Lia Lqa.
From Verif Require Import Base BaseFacts Group_Model Group_Proofs Lattice_Model Lattice_Spec Lattice_Proofs
  FloatCmp_Model FloatCmp_Spec FloatCmp_Proofs LatGen_Model LatGen_Spec LatGen_Proofs.
Import ListNotations.
Open Scope Z_scope.

(** ** cells and labels *)
Lemma cell_of_app c q : cell_of (c ++ [q]) = c.
Proof. apply removelast_last. Qed.
Lemma label_of_app c q : label_of (c ++ [q]) = Z.to_nat q.
Proof. unfold label_of. now rewrite last_last. Qed.

Lemma plus_len c d : length c = length d -> length (plus_cell c d) = length c.
Proof. intros H. unfold plus_cell. rewrite map_length, combine_length. lia. Qed.

(** the difference of positions depends on the difference of the cells only *)
Lemma shift_vsub (c c' dl : coord) (o o' : list Q) : length c = length dl -> length c' = length dl ->
  Forall2 (fun x y => (y == x)%Q)
    (vsub (map (fun xo => inject_Z (fst xo) + snd xo)%Q (combine c o)) (map (fun xo => inject_Z (fst xo) + snd xo)%Q (combine (plus_cell c dl) o')))
    (vsub (map (fun xo => inject_Z (fst xo) + snd xo)%Q (combine c' o)) (map (fun xo => inject_Z (fst xo) + snd xo)%Q (combine (plus_cell c' dl) o'))).
Proof.
  revert c' dl o o'. induction c as [|x c IH]; intros [|x' c'] [|k dl] o o' H H'; try discriminate; [constructor|].
  destruct o as [|p o], o' as [|p' o']; cbn [combine map plus_cell vsub fst snd]; try constructor.
  - rewrite !inject_Z_plus. ring.
  - apply IH; cbn in *; lia.
Qed.

Lemma in_box_len es c : in_box es c -> length c = length es.
Proof. unfold in_box. induction 1; cbn; congruence. Qed.

Lemma around_label g c q : valid g -> length c = length (g_extent g) -> around g (c ++ [q]) -> 0 <= q < Z.of_nat (length (g_offsets g)).
Proof.
  intros (V & _) L H. unfold around, ext, per in H. revert L V H. generalize (g_pbc g). generalize (g_extent g). intros es ps L V H.
  revert es ps L V H. induction c as [|x c IH]; intros [|e es] [|p ps] L V H; try discriminate.
  - cbn in H. inversion H; subst. cbn in *. assumption.
  - cbn in H. inversion H; subst. eapply (IH es ps); cbn in *; try lia. assumption.
Qed.
Lemma around_make g c q : Forall (fun p => p = true) (g_pbc g) -> length (g_pbc g) = length (g_extent g) ->
  Forall2 (fun x e => -1 <= x <= e) c (g_extent g) -> 0 <= q < Z.of_nat (length (g_offsets g)) -> around g (c ++ [q]).
Proof.
  unfold around, ext, per. generalize (g_pbc g) (g_extent g). intros ps es P L F Q. revert ps P L.
  induction F as [|x e c es X F IH]; intros [|p ps] P L; try discriminate.
  - cbn. constructor; [cbn; lia|constructor].
  - cbn [app combine]. inversion P; subst. constructor; [cbn [fst snd]; lia|]. apply IH; auto.
Qed.

Lemma neighbours_everywhere g c dl q q' : valid g -> Forall (fun p => p = true) (g_pbc g) ->
  length c = length (g_extent g) -> length dl = length (g_extent g) -> Forall (fun k => -1 <= k <= 1) dl ->
  nearest_pair g (c ++ [q]) (plus_cell c dl ++ [q']) ->
  forall c', in_box (g_extent g) c' -> adjacent g (c' ++ [q]) (folded g (plus_cell c' dl ++ [q'])).
Proof.
  intros V Pb Lc Ld Hd N c' Bc'. pose proof (in_box_len _ _ Bc') as Lc'.
  destruct N as (A & B & C & D & F).
  pose proof (around_label g c q V Lc A) as Q.
  pose proof (around_label g (plus_cell c dl) q' V ltac:(rewrite plus_len; lia) B) as Q'.
  destruct V as (V1 & V2 & V3).
  assert (E : (sqdist g (c' ++ [q]) (plus_cell c' dl ++ [q']) == sqdist g (c ++ [q]) (plus_cell c dl ++ [q']))%Q).
  { unfold sqdist, frac. rewrite !cell_of_app, !label_of_app. apply quad_ext. apply shift_vsub; lia. }
  assert (Bx : of_box g (c' ++ [q])).
  { unfold of_box, in_box, ext. apply Forall2_app; [exact Bc'|]. constructor; [exact Q|constructor]. }
  exists (c' ++ [q]), (plus_cell c' dl ++ [q']). split; [|split; [|reflexivity]].
  - split; [|now left]. split.
    { apply around_make; auto. clear - Bc'. unfold in_box in Bc'. induction Bc'; constructor; auto. lia. }
    split.
    { apply around_make; auto. clear - Bc' Hd Ld. unfold in_box in Bc'. revert dl Hd Ld.
      induction Bc' as [|x e c es X H IH]; intros [|k dl] Hd Ld; try discriminate; [constructor|].
      inversion Hd; subst. cbn. constructor; [lia|]. apply IH; auto. }
    split; [rewrite E; exact C|]. split; [destruct D as (i & Hi & D); exists i; split; [exact Hi|rewrite E; exact D]|]. intros. rewrite E. apply F; auto.
  - apply folded_id. exact Bx.
Qed.

(** ** look-ups *)
Lemma last_pos_spec key l :
  match last_pos key l with
  | Some k => (k < length l)%nat /\ nth k l [] = key
  | None => ~ In key l
  end.
Proof.
  induction l as [|x l IH]; cbn [last_pos]; [auto|]. destruct (last_pos key l) as [k|].
  - destruct IH. split; [cbn; lia|auto].
  - destruct (zlist_eqb x key) eqn:E.
    + apply zlist_eqb_eq in E. split; [cbn; lia|auto].
    + intros [->|H]; [|auto]. rewrite (proj2 (zlist_eqb_eq key key) eq_refl) in E. discriminate.
Qed.

Lemma comparable_periodic_comp b x y : (x == y)%Q -> comparable_periodic b x = comparable_periodic b y.
Proof.
  intros H. unfold comparable_periodic, comparable_periodic_with, comparable_with.
  assert (E : rint (x * inject_Z bin_density + offset) = rint (y * inject_Z bin_density + offset)) by (apply rint_comp; rewrite H; reflexivity).
  now rewrite E.
Qed.


Lemma int_position_moved g n y y' : length (g_pbc g) = length (g_extent g) -> Forall (fun e => 1 <= e) (g_extent g) ->
  shift_ok g n -> Forall2 Qeq y' (moved g n y) -> length y = length (g_extent g) -> int_position g y' = int_position g y.
Proof.
  unfold shift_ok, moved, int_position. generalize (g_pbc g) (g_extent g). intros ps es L P (Ln & Fn) H Ly.
  revert ps n y y' L Ln Fn H Ly. induction P as [|e es He P IH]; intros [|p ps] [|k n] [|x y] y' L Ln Fn H Ly; try discriminate; cbn in H |- *.
  - inversion H; subst. reflexivity.
  - inversion H as [|x' ? y0 ? E H']; subst. inversion Fn as [|? ? F1 F2]; subst. cbn [fst snd] in *.
    assert (E2 : (x' / inject_Z e == x / inject_Z e + inject_Z k)%Q).
    { rewrite E, inject_Z_mult. field. intros C. apply (inject_Z_injective e 0) in C. lia. }
    cbn [combine map fst snd]. rewrite (IH ps n y y0); auto; try (cbn in *; lia). f_equal.
    rewrite (comparable_periodic_comp _ _ _ E2). destruct p; [apply periodic_shift|].
    rewrite F1 by reflexivity. apply comparable_periodic_comp. change (inject_Z 0) with 0%Q. ring.
Qed.

Lemma periodic_same_place p e x y : comparable_periodic p (x / inject_Z e) = comparable_periodic p (y / inject_Z e) -> same_place p e x y.
Proof.
  destruct p.
  - intros H. apply periodic_same in H. destruct H as [n H]. exists n. split; [discriminate|exact H].
  - intros H. rewrite !periodic_off in H. apply comparable_same in H. exists 0. split; [reflexivity|].
    assert (E : (x / inject_Z e - y / inject_Z e - inject_Z 0 == x / inject_Z e - y / inject_Z e)%Q) by (change (inject_Z 0) with 0%Q; ring).
    rewrite E. exact H.
Qed.


Lemma int_position_same g y z : length (g_pbc g) = length (g_extent g) -> length y = length (g_extent g) -> length z = length (g_extent g) ->
  int_position g y = int_position g z -> same_position g y z.
Proof.
  unfold same_position, int_position. generalize (g_pbc g) (g_extent g). intros ps es. revert ps y z.
  induction es as [|e es IH]; intros [|p ps] [|x y] [|x' z] L Ly Lz H d Hd; try discriminate; [cbn in Hd; lia|].
  cbn [combine map fst snd] in H. inversion H as [[H1 H2]]. destruct d as [|d]; cbn [nth].
  - now apply periodic_same_place.
  - apply IH; auto; cbn in *; lia.
Qed.


Lemma frac_len g c : shaped g -> of_box g c -> length (frac g c) = length (g_extent g).
Proof.
  intros S B. unfold of_box, in_box, ext in B. apply Forall2_app_inv_r in B. destruct B as (c0 & l & B & H & ->).
  inversion H as [|q ? ? ? Hq H']; subst. inversion H'; subst.
  unfold frac. rewrite cell_of_app, label_of_app, map_length, combine_length. apply in_box_len in B. rewrite B.
  assert (length (nth (Z.to_nat q) (g_offsets g) []) = length (g_extent g)) as ->; [|lia].
  unfold shaped in S. rewrite Forall_forall in S. apply S, nth_In. lia.
Qed.

Lemma adjacent_box g c d : valid g -> adjacent g c d -> of_box g c.
Proof.
  intros V (u & v & ((A & _) & _) & <- & _). apply folded_box; auto. now apply around_len in A.
Qed.

Section Look.
Variables (g : geometry) (L : glattice).
Hypothesis V : valid g.
Hypothesis S : shaped g.
Hypothesis HL : gen_lattice g = Ok L.

Lemma L_facts : gl_geom L = g /\ NoDup (gl_sites L) /\ forall c, In c (gl_sites L) -> of_box g c.
Proof.
  destruct (gen_main g V) as [A [Ex|B]]; [|rewrite HL in B; discriminate].
  destruct (A Ex) as (L' & E & G & So & Si & _). rewrite HL in E. injection E as <-.
  split; [exact G|]. split; [now apply lex_nodup|]. intros c Hc. apply Si in Hc. destruct Hc as [d Hd]. eapply adjacent_box; eauto.
Qed.

Let F (i : nat) := frac g (nth i (gl_sites L) []).
Let keys := map (fun c => int_position g (frac g c)) (gl_sites L).
Lemma keys_nth i : (i < length (gl_sites L))%nat -> nth i keys [] = int_position g (F i).
Proof.
  intros H. unfold keys, F. set (f := fun c => int_position g (frac g c)).
  rewrite (nth_indep _ [] (f [])) by now rewrite map_length. now rewrite (map_nth f).
Qed.
Lemma F_len i : (i < length (gl_sites L))%nat -> length (F i) = length (g_extent g).
Proof. intros H. apply frac_len; auto. apply L_facts. now apply nth_In. Qed.
Lemma id_eq y : id_from_position L y = match last_pos (int_position g y) keys with Some k => Ok k | None => Err Exception_ end.
Proof. unfold id_from_position, keys. now rewrite (proj1 L_facts). Qed.

Lemma id_sound y i : length y = length (g_extent g) -> id_from_position L y = Ok i ->
  (i < length (gl_sites L))%nat /\ same_position g y (F i).
Proof.
  intros Ly H. rewrite id_eq in H. pose proof (last_pos_spec (int_position g y) keys) as P.
  destruct (last_pos _ _) as [k|]; [|discriminate]. injection H as ->. destruct P as [P1 P2].
  assert (Hi : (i < length (gl_sites L))%nat) by (unfold keys in P1; now rewrite map_length in P1).
  split; [exact Hi|]. rewrite keys_nth in P2 by exact Hi.
  apply int_position_same; auto; [apply V|now apply F_len].
Qed.
Lemma id_found i n y : (i < length (gl_sites L))%nat -> shift_ok g n -> Forall2 Qeq y (moved g n (F i)) ->
  exists k, id_from_position L y = Ok k.
Proof.
  intros Hi Hn Hy. rewrite id_eq. destruct V as (V1 & V2 & V3).
  rewrite (int_position_moved g n (F i) y V1 V2 Hn Hy (F_len i Hi)).
  pose proof (last_pos_spec (int_position g (F i)) keys) as P. destruct (last_pos _ _) as [k|]; [eauto|].
  destruct P. rewrite <- keys_nth by exact Hi. apply nth_In. unfold keys. now rewrite map_length.
Qed.
Lemma id_exact i n y :
  (forall j k, (j < length (gl_sites L))%nat -> (k < length (gl_sites L))%nat -> j <> k -> ~ same_position g (F j) (F k)) ->
  (i < length (gl_sites L))%nat -> shift_ok g n -> Forall2 Qeq y (moved g n (F i)) -> id_from_position L y = Ok i.
Proof.
  intros Sep Hi Hn Hy. rewrite id_eq. destruct V as (V1 & V2 & V3).
  rewrite (int_position_moved g n (F i) y V1 V2 Hn Hy (F_len i Hi)).
  pose proof (last_pos_spec (int_position g (F i)) keys) as P. destruct (last_pos _ _) as [k|].
  - destruct P as [P1 P2].
    assert (Hk : (k < length (gl_sites L))%nat) by (unfold keys in P1; now rewrite map_length in P1).
    rewrite keys_nth in P2 by exact Hk. destruct (Nat.eq_dec k i) as [->|Ne]; [reflexivity|].
    destruct (Sep k i Hk Hi Ne). apply int_position_same; auto; now apply F_len.
  - destruct P. rewrite <- keys_nth by exact Hi. apply nth_In. unfold keys. now rewrite map_length.
Qed.
Lemma basis_exact i : (i < length (gl_sites L))%nat ->
  id_from_basis_coords L (nth i (gl_sites L) []) = Ok i /\ position_from_basis_coords L (nth i (gl_sites L) []) = Ok (F i).
Proof.
  intros Hi. unfold position_from_basis_coords, id_from_basis_coords.
  pose proof (last_pos_spec (nth i (gl_sites L) []) (gl_sites L)) as P. destruct (last_pos _ _) as [k|].
  - destruct P as [P1 P2]. apply (proj1 (NoDup_nth _ []) (proj1 (proj2 L_facts))) in P2; auto. subst k.
    split; [reflexivity|]. cbn [bind]. now rewrite (proj1 L_facts).
  - destruct P. now apply nth_In.
Qed.
Lemma basis_none c : ~ In c (gl_sites L) ->
  id_from_basis_coords L c = Err Exception_ /\ position_from_basis_coords L c = Err Exception_.
Proof.
  intros Hc. unfold position_from_basis_coords, id_from_basis_coords.
  pose proof (last_pos_spec c (gl_sites L)) as P. destruct (last_pos _ _) as [k|]; [|auto].
  destruct P as [P1 P2]. destruct Hc. rewrite <- P2. now apply nth_In.
Qed.
End Look.

(** ** wave vectors *)
Lemma approx_rint a x : is_approx_int a x = true <-> (Qabs (x - inject_Z (rint x)) <= a)%Q.
Proof. unfold is_approx_int, isclose. rewrite Qle_bool_iff. reflexivity. Qed.
Lemma wave pbc kappa r : length pbc = length kappa ->
  to_reciprocal_lattice pbc kappa = Ok r <->
  Forall2 (fun x k => (Qabs (x - inject_Z k) <= 1 # 100000000)%Q) kappa r /\ Forall2 (fun p k => p = false -> k = 0) pbc r.
Proof.
  intros Len. unfold to_reciprocal_lattice.
  assert (U : forall x k, (Qabs (x - inject_Z k) <= 1 # 100000000)%Q -> rint x = k).
  { intros x k H. apply rint_unique. eapply Qle_lt_trans; [exact H|reflexivity]. }
  split.
  - destruct (forallb (is_approx_int (1 # 100000000)) kappa) eqn:A; cbn [negb]; [|discriminate].
    destruct (forallb _ (combine pbc (map rint kappa))) eqn:B; [|discriminate]. intros [= <-].
    rewrite forallb_forall in A, B. split.
    + assert (G : forall l, (forall x, In x l -> In x kappa) -> Forall2 (fun x k => (Qabs (x - inject_Z k) <= 1 # 100000000)%Q) l (map rint l)).
      { induction l as [|x l IH]; intros H; cbn; constructor; [|apply IH; intros; apply H; now right].
        apply approx_rint, A, H. now left. }
      apply G. auto.
    + assert (L2 : length pbc = length (map rint kappa)) by now rewrite map_length.
      clear - B L2. revert B L2. generalize (map rint kappa). intros l. revert pbc.
      induction l as [|k l IH]; intros [|p ps] B L2; try discriminate; constructor.
      * intros ->. specialize (B (false, k) (or_introl eq_refl)). cbn in B. now apply Z.eqb_eq in B.
      * apply IH; [|cbn in L2; lia]. intros; apply B. now right.
  - intros [A B].
    assert (E : map rint kappa = r).
    { clear - A U. induction A; cbn; [reflexivity|]. now rewrite IHA, (U _ _ H). }
    assert (C : forallb (is_approx_int (1 # 100000000)) kappa = true).
    { clear - A U. induction A; cbn; [reflexivity|]. rewrite IHA, andb_true_r. apply approx_rint. now rewrite (U _ _ H). }
    rewrite C, E. cbn [negb].
    assert (forallb (fun pk : bool * Z => fst pk || (snd pk =? 0)) (combine pbc r) = true) as ->; [|reflexivity].
    clear - B. induction B as [|p k ps r H B IH]; [reflexivity|]. cbn [combine forallb fst snd]. rewrite IH, andb_true_r.
    destruct p; [reflexivity|]. cbn. now apply Z.eqb_eq, H.
Qed.
Lemma wave_total pbc kappa : (exists r, to_reciprocal_lattice pbc kappa = Ok r) \/ to_reciprocal_lattice pbc kappa = Err Exception_.
Proof. unfold to_reciprocal_lattice. destruct (negb _); [auto|]. destruct (forallb _ (combine _ _)); eauto. Qed.

(** ** offsets *)
Lemma zlist_eqb_refl a : zlist_eqb a a = true.
Proof. now apply zlist_eqb_eq. Qed.
Lemma zlex_irrefl a : zlex_ltb a a = false.
Proof. induction a; cbn [zlex_ltb]; auto. now rewrite Z.ltb_irrefl. Qed.
Lemma zlex_trans a b c : zlex_ltb a b = true -> zlex_ltb b c = true -> zlex_ltb a c = true.
Proof.
  revert b c; induction a as [|x a IH]; intros [|y b] [|z c]; cbn [zlex_ltb]; try easy.
  destruct (x <? y) eqn:E1; destruct (y <? z) eqn:E2; destruct (x <? z) eqn:E3;
    destruct (y <? x) eqn:E4; destruct (z <? y) eqn:E5; destruct (z <? x) eqn:E6;
    rewrite ?Z.ltb_lt, ?Z.ltb_ge in *; try easy; try lia.
  apply IH.
Qed.
Lemma zlex_total a b : zlex_ltb a b = false -> a <> b -> zlex_ltb b a = true.
Proof.
  revert b; induction a as [|x a IH]; intros [|y b]; cbn [zlex_ltb]; try easy.
  destruct (x <? y) eqn:E1; [easy|]. destruct (y <? x) eqn:E2; [easy|].
  rewrite Z.ltb_ge in *. assert (x = y) by lia; subst. intros H N. apply IH; auto. congruence.
Qed.
Lemma zuinsert_in x l z : In z (zuinsert x l) <-> z = x \/ In z l.
Proof.
  induction l as [|y l IH]; cbn; [intuition|].
  destruct (zlist_eqb x y) eqn:E.
  - apply zlist_eqb_eq in E; subst. cbn. intuition.
  - destruct (zlex_ltb x y); cbn; [intuition|]. rewrite IH. intuition.
Qed.
Lemma zunique_in rows z : In z (zunique rows) <-> In z rows.
Proof. induction rows as [|r rows IH]; cbn; [easy|]. fold (zunique rows). rewrite zuinsert_in, IH. intuition. Qed.
Lemma zuinsert_sorted x l :
  StronglySorted (fun a b => zlex_ltb a b = true) l -> StronglySorted (fun a b => zlex_ltb a b = true) (zuinsert x l).
Proof.
  induction l as [|y l IH]; cbn; intros H; [repeat constructor|].
  destruct (zlist_eqb x y) eqn:E; [exact H|]. inversion H as [|? ? So F]; subst.
  destruct (zlex_ltb x y) eqn:L.
  - constructor; auto. constructor; auto. eapply Forall_impl; [|exact F]. cbn; intros; eapply zlex_trans; eauto.
  - constructor; auto. rewrite Forall_forall in *. intros z Hz. apply zuinsert_in in Hz.
    destruct Hz as [->|Hz]; auto. apply zlex_total; auto. intros ->. now rewrite zlist_eqb_refl in E.
Qed.
Lemma zunique_sorted rows : StronglySorted (fun a b => zlex_ltb a b = true) (zunique rows).
Proof. induction rows; cbn; [constructor|]. now apply zuinsert_sorted. Qed.
Lemma zunique_nodup rows : NoDup (zunique rows).
Proof.
  pose proof (zunique_sorted rows) as So. induction So as [|x l So IH F]; constructor; auto.
  intros H. rewrite Forall_forall in F. specialize (F _ H). now rewrite zlex_irrefl in F.
Qed.
Lemma zrow_pos_spec x l : In x l -> (zrow_pos x l < length l)%nat /\ nth (zrow_pos x l) l [] = x /\
  forall j, (j < zrow_pos x l)%nat -> nth j l [] <> x.
Proof.
  induction l as [|y l IH]; cbn; [easy|]. intros H. destruct (zlist_eqb x y) eqn:E.
  - apply zlist_eqb_eq in E; subst. repeat split; [lia|]. intros j Hj; lia.
  - destruct H as [->|H]; [now rewrite zlist_eqb_refl in E|].
    destruct (IH H) as [A [B C]]. repeat split; [lia|exact B|].
    intros [|j] Hj; [|apply C; lia]. intros ->. now rewrite zlist_eqb_refl in E.
Qed.

Section Offsets.
Variable offs : list (list Q).
Let ints := map offset_bins offs.
Let uniq := zunique ints.
Let idx := map (fun u => zrow_pos u ints) uniq.
Let sel := map (fun i => nth i offs []) idx.

Lemma uniq_len : length uniq = length offs <-> NoDup ints.
Proof.
  assert (Li : length ints = length offs) by apply map_length. rewrite <- Li. split.
  - intros H. eapply NoDup_incl_NoDup; [apply (zunique_nodup ints)|unfold uniq in H; lia|]. intros z. apply zunique_in.
  - intros H. apply Nat.le_antisymm; apply NoDup_incl_length; auto; try (intros z; apply zunique_in). apply zunique_nodup.
Qed.
Lemma sel_bins : map offset_bins sel = uniq.
Proof.
  unfold sel, idx. rewrite !map_map. rewrite <- (map_id uniq) at 2. apply map_ext_in. intros u Hu.
  apply (proj1 (zunique_in ints u)) in Hu. destruct (zrow_pos_spec u ints Hu) as (A & B & _).
  rewrite <- B at 2. unfold ints in A. rewrite map_length in A.
  unfold ints at 2. rewrite (nth_indep (map offset_bins offs) [] (offset_bins [])) by now rewrite map_length.
  now rewrite (map_nth offset_bins).
Qed.
Lemma sel_in o : In o sel -> In o offs.
Proof.
  unfold sel, idx. rewrite map_map, in_map_iff. intros (u & <- & Hu). apply (proj1 (zunique_in ints u)) in Hu.
  destruct (zrow_pos_spec u ints Hu) as (A & _). apply nth_In. unfold ints in A. now rewrite map_length in A.
Qed.

Lemma cleaned_eq nd : exists w, clean_site_offsets nd (Some offs) =
  if Nat.eqb (length offs) (length uniq) then Cleaned offs false w else Cleaned sel true w.
Proof. unfold clean_site_offsets. fold ints uniq idx sel. destruct (Nat.eqb _ _); eexists; reflexivity. Qed.

Lemma cleaned nd :
  let r := clean_site_offsets nd (Some offs) in
  incl (o_offsets r) offs /\ NoDup (map offset_bins (o_offsets r)) /\
  (forall o, In o offs -> exists o', In o' (o_offsets r) /\ offset_bins o' = offset_bins o) /\
  (NoDup (map offset_bins offs) -> o_offsets r = offs) /\
  (o_warn_duplicates r = true <-> ~ NoDup (map offset_bins offs)).
Proof.
  destruct (cleaned_eq nd) as [w E]. cbn zeta. rewrite E. destruct (Nat.eqb_spec (length offs) (length uniq)) as [H|H]; cbn [o_offsets o_warn_duplicates].
  - symmetry in H. apply uniq_len in H. fold ints. split; [apply incl_refl|]. split; [exact H|]. split; [eauto|]. split; [auto|].
    split; [discriminate|contradiction].
  - assert (N : ~ NoDup ints) by (intros C; apply uniq_len in C; congruence).
    split; [exact sel_in|]. rewrite sel_bins. split; [apply zunique_nodup|]. split; [|split; [contradiction|tauto]].
    intros o Ho. assert (In (offset_bins o) (map offset_bins sel)) as C.
    { rewrite sel_bins. apply zunique_in. now apply in_map. }
    apply in_map_iff in C. destruct C as (o' & A & B). eauto.
Qed.
Lemma first_of nd k : (k < length offs)%nat ->
  (forall j, (j < k)%nat -> offset_bins (nth j offs []) <> offset_bins (nth k offs [])) ->
  In (nth k offs []) (o_offsets (clean_site_offsets nd (Some offs))).
Proof.
  intros Hk F. destruct (cleaned_eq nd) as [w E]. rewrite E. destruct (Nat.eqb _ _); cbn [o_offsets]; [now apply nth_In|].
  unfold sel, idx. rewrite map_map, in_map_iff. exists (offset_bins (nth k offs [])).
  assert (I : In (offset_bins (nth k offs [])) ints) by (apply in_map, nth_In; auto).
  split; [|now apply zunique_in]. destruct (zrow_pos_spec _ _ I) as (A & B & C).
  assert (Li : length ints = length offs) by apply map_length.
  assert (Nt : forall j, (j < length offs)%nat -> nth j ints [] = offset_bins (nth j offs [])).
  { intros j Hj. unfold ints. rewrite (nth_indep _ [] (offset_bins [])) by (fold ints; lia). now rewrite (map_nth offset_bins). }
  set (z := zrow_pos _ _) in *. destruct (Nat.lt_trichotomy z k) as [H|[->|H]]; [|reflexivity|].
  - rewrite Nt in B by lia. now destruct (F z H).
  - specialize (C k H). rewrite Nt in C by lia. contradiction.
Qed.
End Offsets.

Lemma never_outside nd o : o_warn_outside (clean_site_offsets nd o) = false.
Proof.
  unfold clean_site_offsets. set (offs := match o with None => _ | Some _ => _ end). cbn zeta. cbn [o_warn_outside].
  set (dup := negb _). set (ints' := if dup then _ else _).
  assert (R : Forall (Forall (fun k => 0 <= k < 3326400)) ints').
  { assert (R0 : Forall (Forall (fun k => 0 <= k < 3326400)) (map offset_bins offs)).
    { apply Forall_map, Forall_forall. intros x _. apply Forall_map, Forall_forall. intros y _. apply periodic_range. }
    unfold ints'. destruct dup; [|exact R0]. apply Forall_map, Forall_forall. intros i _.
    destruct (Nat.lt_ge_cases i (length (map offset_bins offs))) as [H|H].
    - rewrite Forall_forall in R0. apply R0. now apply nth_In.
    - rewrite nth_overflow by exact H. constructor. }
  change (comparable 0) with 0. change (comparable 1) with 3326400.
  apply orb_false_iff. split.
  - clear - R. induction R as [|r l H R IH]; [reflexivity|]. cbn [existsb]. rewrite IH, orb_false_r.
    induction H as [|k r K H IH2]; [reflexivity|]. cbn [existsb]. rewrite IH2, orb_false_r. apply Z.ltb_ge. lia.
  - clear - R. induction R as [|r l H R IH]; [reflexivity|]. cbn [existsb]. rewrite IH, orb_false_r.
    induction H as [|k r K H IH2]; [reflexivity|]. cbn [existsb]. rewrite IH2, orb_false_r. apply Z.ltb_ge. lia.
Qed.

Lemma bins_same o o' : length o = length o' -> offset_bins o = offset_bins o' -> same_offset o o'.
Proof.
  revert o'. induction o as [|x o IH]; intros [|y o'] L H; try discriminate; constructor.
  - cbn in H. injection H as H _. apply periodic_same_place.
    rewrite (comparable_periodic_comp true (x / inject_Z 1) x), (comparable_periodic_comp true (y / inject_Z 1) y);
      [exact H| |]; change (inject_Z 1) with 1%Q; field.
  - apply IH; [now injection L|]. cbn in H. now injection H.
Qed.
Lemma translate_bins o o' : translate o o' -> offset_bins o = offset_bins o'.
Proof.
  induction 1 as [|x y o o' [n E] H IH]; [reflexivity|]. cbn [offset_bins map]. fold (offset_bins o) (offset_bins o'). rewrite IH. f_equal.
  rewrite (comparable_periodic_comp true _ _ E). symmetry. apply periodic_shift.
Qed.

Lemma offsets_props nd offs : Forall (fun o => length o = nd) offs ->
  let r := clean_site_offsets nd (Some offs) in
  incl (o_offsets r) offs /\
  (forall o, In o offs -> exists o', In o' (o_offsets r) /\ same_offset o o') /\
  (forall i j, (i < length (o_offsets r))%nat -> (j < length (o_offsets r))%nat -> i <> j ->
     ~ translate (nth i (o_offsets r) []) (nth j (o_offsets r) [])) /\
  ((forall i j, (i < length offs)%nat -> (j < length offs)%nat -> i <> j -> ~ same_offset (nth i offs []) (nth j offs [])) ->
     o_offsets r = offs /\ o_warn_duplicates r = false) /\
  (o_warn_duplicates r = false -> o_offsets r = offs) /\
  ((exists i j, (i < j < length offs)%nat /\ translate (nth i offs []) (nth j offs [])) -> o_warn_duplicates r = true).
Proof.
  intros F r. destruct (cleaned offs nd) as (A & B & C & D & E). cbn zeta in *. fold r in A, B, C, D, E.
  rewrite Forall_forall in F.
  assert (Nt : forall l i, (i < length l)%nat -> nth i (map offset_bins l) [] = offset_bins (nth i l [])).
  { intros l i Hi. rewrite (nth_indep _ [] (offset_bins [])) by now rewrite map_length. now rewrite (map_nth offset_bins). }
  split; [exact A|]. split; [|split; [|split; [|split]]].
  - intros o Ho. destruct (C o Ho) as (o' & I & Q). exists o'. split; [exact I|]. apply bins_same; [|auto].
    rewrite (F o Ho). symmetry. apply F, A, I.
  - intros i j Hi Hj Ne T. apply translate_bins in T. rewrite <- !Nt in T by assumption.
    apply Ne. apply (proj1 (NoDup_nth _ []) B); rewrite ?map_length; auto.
  - intros Sep. assert (N : NoDup (map offset_bins offs)).
    { apply (NoDup_nth _ []). intros i j Hi Hj H. rewrite map_length in Hi, Hj. rewrite !Nt in H by assumption.
      destruct (Nat.eq_dec i j) as [|Ne]; [assumption|]. destruct (Sep i j Hi Hj Ne). apply bins_same; auto.
      rewrite !F by (apply nth_In; assumption). reflexivity. }
    split; [now apply D|]. destruct (o_warn_duplicates r); [|reflexivity]. now destruct (proj1 E eq_refl).
  - intros W. destruct (cleaned_eq offs nd) as [w Q]. fold r in Q. rewrite Q in W |- *. destruct (Nat.eqb _ _); [reflexivity|discriminate].
  - intros (i & j & Hij & T). apply E. intros N. apply translate_bins in T. rewrite <- !Nt in T by lia.
    apply (proj1 (NoDup_nth _ []) N) in T; rewrite ?map_length; lia.
Qed.
