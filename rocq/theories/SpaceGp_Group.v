(** Proofs behind C87: point group, translations, space group, edges. *)
From Coq Require Import List Arith Bool ZArith QArith Qcanon Permutation Lia.
From Verif Require Import Base BaseFacts Rings FloatCmp_Model FloatCmp_Proofs Lattice_Model Lattice_Spec LatGen_Model LatGen_Spec LatGen_Proofs LatGen_Look
  PointGp_Model PointGp_Spec PointGp_Lin PointGp_Proofs PointGp_Tables PointGp_Group
  Group_Model Group_Spec Group_Proofs Lattice_Trans SpaceGp_Model SpaceGp_Spec SpaceGp_Proofs.
Import ListNotations.
Open Scope nat_scope.

Lemma forall2_in_l {A B} (R : A -> B -> Prop) l l' x : Forall2 R l l' -> In x l -> exists y, In y l' /\ R x y.
Proof. induction 1 as [|a b l l' H F IH]; cbn; [tauto|]. intros [->|I]; [eauto|]. destruct (IH I) as (y & Y1 & Y2). eauto. Qed.
Lemma forall2_in_r {A B} (R : A -> B -> Prop) l l' y : Forall2 R l l' -> In y l' -> exists x, In x l /\ R x y.
Proof. induction 1 as [|a b l l' H F IH]; cbn; [tauto|]. intros [->|I]; [eauto|]. destruct (IH I) as (x & X1 & X2). eauto. Qed.
Lemma forall2_map_r {A B C} (R : A -> C -> Prop) (f : B -> C) l l' : Forall2 R l (map f l') <-> Forall2 (fun x y => R x (f y)) l l'.
Proof.
  split.
  - revert l. induction l' as [|y l' IH]; intros l H; inversion H; subst; constructor; auto.
  - induction 1; cbn; constructor; auto.
Qed.
Lemma forall2_impl {A B} (R R' : A -> B -> Prop) l l' : (forall x y, R x y -> R' x y) -> Forall2 R l l' -> Forall2 R' l l'.
Proof. intros H. induction 1; constructor; auto. Qed.

Section Groups.
Variable L : glattice.
Hypothesis PL : proper_lattice L.
Let N := n_nodes L.
Let D := dimension L.
Definition respects (f : vec -> vec) : Prop := forall v v', same_point L v v' -> same_point L (f v) (f v').

Lemma group_of_maps es fs : fs <> [] -> Forall2 (acts L) es fs -> (forall f, In f fs -> respects f) ->
  (forall f h, In f fs -> In h fs -> exists k, In k fs /\ forall v, same_point L (h (f v)) (k v)) ->
  (forall f, In f fs -> exists h, In h fs /\ undo L f h) ->
  is_group N (map (perm_of N) es).
Proof.
  intros NE F R C I. split; [|split].
  - inversion F; subst; [contradiction|discriminate].
  - intros p Hp. apply in_map_iff in Hp. destruct Hp as (e & <- & He). destruct (forall2_in_l _ _ _ _ F He) as (f & Hf & A1 & A2 & A3).
    destruct (I f Hf) as (h & Hh & U). destruct (forall2_in_r _ _ _ _ F Hh) as (e' & He' & B1 & B2 & B3).
    exists (perm_of N e'). split; [now apply in_map|]. apply (undo_inverses L PL f h); auto; now apply R.
  - intros p q p' Hp Hq Inv. apply in_map_iff in Hp, Hq. destruct Hp as (e & <- & He), Hq as (e2 & <- & He2).
    destruct (forall2_in_l _ _ _ _ F He) as (f & Hf & A1 & A2 & A3). destruct (forall2_in_l _ _ _ _ F He2) as (f2 & Hf2 & B1 & B2 & B3).
    destruct (I f Hf) as (h & Hh & U). destruct (forall2_in_r _ _ _ _ F Hh) as (e' & He' & C1 & C2 & C3).
    assert (E : p' = perm_of N e').
    { assert (J : inverses N (perm_of N e) (perm_of N e')) by (apply (undo_inverses L PL f h); auto; now apply R).
      pose proof (inverses_perm N _ _ (proj1 A3) Inv) as P'. pose proof (inverses_perm N _ _ (proj1 A3) J) as P''.
      exact (inverses_unique N _ _ _ (proj1 A3) P' P'' Inv J). }
    subst p'. destruct (C h f2 Hh Hf2) as (k & Hk & Ek). destruct (forall2_in_r _ _ _ _ F Hk) as (e3 & He3 & D1 & D2 & D3).
    apply in_map_iff. exists e3. split; [|exact He3]. apply (belongs_unique L PL k); [exact D3|].
    apply (belongs_ext L (fun v => f2 (h v))); [intros i _; apply Ek|]. apply (belongs_times L); auto. now apply R.
Qed.

Lemma respects_sym f : box_symmetry L f -> respects f.
Proof. intros [[H _] _]. exact H. Qed.

Lemma point_group_main l : (forall p, In p l -> box_symmetry L (map_of L p)) ->
  exists G, sg_point_group L l = Ok G /\ degree G = N /\ Forall (wf N) (elems G) /\
    Forall2 (fun e p => belongs L (map_of L p) (perm_of N e)) (elems G) l /\
    (group_in_box L l -> is_group N (perms G)).
Proof.
  intros H. destruct (point_group_acts L PL l H) as (G & E & Dg & F). exists G. split; [exact E|]. split; [exact Dg|]. split; [|split].
  - apply Forall_forall. intros e He. destruct (forall2_in_l _ _ _ _ F He) as (f & _ & _ & W & _). exact W.
  - pose proof (proj1 (forall2_map_r _ _ _ _) F) as F'. eapply forall2_impl; [|exact F']. intros e p (_ & _ & B). exact B.
  - intros (NE & C & I). unfold perms. rewrite Dg. apply (group_of_maps _ (map (map_of L) l)); [destruct l; [contradiction|discriminate]|exact F| | |].
    + intros f Hf. apply in_map_iff in Hf. destruct Hf as (p & <- & Hp). now apply respects_sym, H.
    + intros f h Hf Hh. apply in_map_iff in Hf, Hh. destruct Hf as (p & <- & Hp), Hh as (q & <- & Hq).
      destruct (C p q Hp Hq) as (r & Hr & Er). exists (map_of L r). split; [now apply in_map|exact Er].
    + intros f Hf. apply in_map_iff in Hf. destruct Hf as (p & <- & Hp). destruct (I p Hp) as (q & Hq & U). exists (map_of L q). split; [now apply in_map|exact U].
Qed.

(** ** translations *)
Lemma back_respects m : respects (back m).
Proof. intros v v' [n [A B]]. exists n. split; [exact A|]. intros d Hd. unfold back. rewrite B by exact Hd. ring. Qed.
Lemma frac_nth g c q d : shaped g -> of_box g (c ++ [q]) -> d < length (g_extent g) ->
  nth d (frac g (c ++ [q])) 0%Q = (inject_Z (nth d c 0%Z) + nth d (nth (Z.to_nat q) (g_offsets g) []) 0)%Q.
Proof.
  intros S B Hd. pose proof (frac_len g _ S B) as Lf. unfold frac in *. rewrite cell_of_app, label_of_app in *.
  rewrite map_length, combine_length in Lf. set (f := fun xo : Z * Q => (inject_Z (fst xo) + snd xo)%Q).
  assert (G : forall l l', d < Nat.min (length l) (length l') -> nth d (map f (combine l l')) 0%Q = (inject_Z (nth d l 0%Z) + nth d l' 0)%Q).
  { clear. revert d. induction d as [|d IH]; intros [|x l] [|y l'] H; cbn in *; try lia; [reflexivity|]. apply IH. lia. }
  apply G. lia.
Qed.
Lemma box_app g c : of_box g c -> exists c0 q, c = c0 ++ [q] /\ in_box (g_extent g) c0 /\ (0 <= q < Z.of_nat (length (g_offsets g)))%Z.
Proof.
  intros B. unfold of_box, in_box, ext in B. apply Forall2_app_inv_r in B. destruct B as (c0 & l & B & H & ->).
  inversion H as [|q ? ? ? Hq H']; subst. inversion H'; subst. exists c0, q. split; [reflexivity|]. split; [exact B|exact Hq].
Qed.
Lemma app_box g c q : in_box (g_extent g) c -> (0 <= q < Z.of_nat (length (g_offsets g)))%Z -> of_box g (c ++ [q]).
Proof. intros B H. unfold of_box, in_box, ext. apply Forall2_app; [exact B|]. constructor; [exact H|constructor]. Qed.
Lemma in_box_nth es c : in_box es c <-> length c = length es /\ forall d, d < length es -> (0 <= nth d c 0 < nth d es 0)%Z.
Proof.
  unfold in_box. split.
  - induction 1 as [|x e c es H F [IH1 IH2]]; cbn; [split; [reflexivity|lia]|]. split; [lia|]. intros [|d] Hd; [exact H|apply IH2; lia].
  - revert c. induction es as [|e es IH]; intros [|x c] [L1 H]; try discriminate; constructor.
    + apply (H 0). cbn. lia.
    + apply IH. split; [cbn in L1; lia|]. intros d Hd. apply (H (S d)). cbn. lia.
Qed.

Hypothesis FL : full_lattice L.
Lemma extent_pos d : d < D -> (1 <= nth d (g_extent (gl_geom L)) 0)%Z.
Proof.
  destruct PL as (g & V & S & HL & Sep). destruct (L_facts g L V HL) as (Eg & _). unfold D, dimension. rewrite Eg. intros Hd.
  destruct V as (_ & V & _). rewrite Forall_forall in V. apply V. now apply nth_In.
Qed.
Lemma back_sites m : displacement L m -> forall i, i < N -> exists k, k < N /\ same_point L (back m (place L i)) (place L k).
Proof.
  intros Hm i Hi. pose proof extent_pos as Ep. destruct PL as (g & V & S & HL & Sep). destruct (L_facts g L V HL) as (Eg & Nd & Box).
  assert (B : of_box g (nth i (gl_sites L) [])) by (apply Box, nth_In; exact Hi).
  unfold displacement, full_lattice, dimension in Hm, FL, Ep. unfold D, dimension in Ep. rewrite Eg in Hm, FL, Ep. set (es := g_extent g) in *.
  destruct (box_app g _ B) as (c & q & Ec & Hc & Hq). fold es in Hc. apply in_box_nth in Hc. destruct Hc as [Lc Hc].
  set (c' := map (fun d => if nth d (g_pbc g) false then ((nth d c 0 - m d) mod nth d es 0)%Z else nth d c 0%Z) (seq 0 (length es))).
  assert (Nc : forall d, d < length es -> nth d c' 0%Z = if nth d (g_pbc g) false then ((nth d c 0 - m d) mod nth d es 0)%Z else nth d c 0%Z).
  { intros d Hd. unfold c'. set (f := fun d => if nth d (g_pbc g) false then ((nth d c 0 - m d) mod nth d es 0)%Z else nth d c 0%Z).
    rewrite (nth_indep _ 0%Z (f 0)) by (rewrite map_length, seq_length; exact Hd). rewrite (map_nth f), seq_nth by exact Hd. reflexivity. }
  assert (Bc : in_box es c').
  { apply in_box_nth. split; [unfold c'; now rewrite map_length, seq_length|]. intros d Hd. rewrite Nc by exact Hd. specialize (Ep d Hd). specialize (Hc d Hd).
    destruct (nth d (g_pbc g) false); [apply Z.mod_pos_bound; lia|exact Hc]. }
  assert (Bc' : of_box g (c' ++ [q])) by (apply app_box; assumption).
  pose proof (FL _ Bc') as In'. apply (In_nth _ _ []) in In'. destruct In' as (k & Hk & Ek). change (nth k (gl_sites L) ([] : coord) = c' ++ [q]) in Ek. exists k. split; [exact Hk|].
  exists (fun d => if nth d (g_pbc g) false then ((nth d c 0 - m d) / nth d es 0)%Z else 0%Z). unfold dimension. rewrite Eg. fold es. split.
  - intros d Hd E. now rewrite E.
  - intros d Hd. unfold back, place, pos_vec. rewrite Eg, Ek, Ec. rewrite !frac_nth by (try assumption; rewrite <- Ec; assumption). rewrite Nc by exact Hd.
    apply Qc_is_canon. rewrite Qc_sub_this, Qc_add_this. unfold zc. rewrite !Qc_of_this.
    destruct (nth d (g_pbc g) false) eqn:Pd.
    + specialize (Ep d Hd). pose proof (Z.div_mod (nth d c 0 - m d) (nth d es 0) ltac:(lia))%Z as DM.
      set (x := nth d c 0%Z) in *. set (e := nth d es 0%Z) in *.
      assert (E : (inject_Z (x - m d) == inject_Z ((x - m d) mod e) + inject_Z ((x - m d) / e * e))%Q).
      { rewrite <- inject_Z_plus. rewrite DM at 1. rewrite (Z.mul_comm (_ / _)), (Z.add_comm (_ mod _)). reflexivity. }
      set (o := nth d (nth (Z.to_nat q) (g_offsets g) []) 0%Q). unfold Z.sub in E at 1. rewrite inject_Z_plus, inject_Z_opp in E.
      transitivity ((inject_Z x + - inject_Z (m d)) + o)%Q; [ring|]. rewrite E. ring.
    + rewrite Hm by assumption. cbn [Z.mul]. change (inject_Z 0) with 0%Q. ring.
Qed.
Lemma displacement_opp m : displacement L m -> displacement L (fun d => - m d)%Z.
Proof. intros H d H1 H2. rewrite H by assumption. reflexivity. Qed.
Lemma displacement_add m m' : displacement L m -> displacement L m' -> displacement L (fun d => m d + m' d)%Z.
Proof. intros H H' d H1 H2. rewrite H, H' by assumption. reflexivity. Qed.
Lemma back_symmetry m : displacement L m -> box_symmetry L (back m).
Proof.
  intros Hm. split; [split; [apply back_respects|now apply back_sites]|]. exists (back (fun d => - m d)%Z).
  split; [split; [apply back_respects|now apply back_sites, displacement_opp]|].
  intros v. split; apply same_ext; intros d _; unfold back; rewrite zc_opp; ring.
Qed.
Lemma symmetry_ext f f' : (forall v d, d < D -> f v d = f' v d) -> box_symmetry L f -> box_symmetry L f'.
Proof.
  intros H [[R S] (h & M & U)].
  assert (Sf : forall v, same_point L (f v) (f' v)) by (intros v; apply same_ext; intros d Hd; now apply H).
  split; [split|].
  - intros v v' E. eapply same_trans; [apply same_sym, Sf|]. eapply same_trans; [apply R, E|apply Sf].
  - intros i Hi. destruct (S i Hi) as (k & Hk & E). exists k. split; [exact Hk|]. eapply same_trans; [apply same_sym, Sf|exact E].
  - exists h. split; [exact M|]. intros v. split.
    + eapply same_trans; [apply (proj1 M), same_sym, Sf|apply U].
    + eapply same_trans; [apply same_sym, Sf|apply U].
Qed.

Definition along (a : nat) (k : Z) : nat -> Z := fun d => if Nat.eqb d a then k else 0%Z.
Lemma along_disp a k : nth a (g_pbc (gl_geom L)) false = true -> displacement L (along a k).
Proof. intros P d _ Hd. unfold along. destruct (Nat.eqb_spec d a) as [->|]; [congruence|reflexivity]. Qed.
Lemma power_acts a t : acts L t (back (along a 1)) -> forall k x j, acts L x (back (along a j)) ->
  exists l, power_list x t k = Ok l /\ Forall2 (acts L) l (map (fun i => back (along a (j + 1 + Z.of_nat i))) (seq 0 k)).
Proof.
  intros At. induction k as [|k IH]; intros x j Ax; cbn [power_list].
  - exists []. split; [reflexivity|constructor].
  - destruct (acts_prod L x t _ _ (back_respects _) Ax At) as (c & E & Ac). rewrite E. cbn [bind].
    assert (Ac' : acts L c (back (along a (j + 1)))).
    { eapply acts_ext; [|exact Ac]. intros i _. apply same_ext. intros d _. unfold back, along. destruct (Nat.eqb d a); rewrite ?zc_add, ?zc_0; ring. }
    destruct (IH c (j + 1)%Z Ac') as (l & El & F). rewrite El. cbn [bind]. exists (c :: l). split; [reflexivity|].
    cbn [seq map]. constructor.
    + now rewrite Z.add_0_r.
    + rewrite <- seq_shift, map_map. erewrite map_ext; [exact F|]. intros i. cbn beta. do 2 f_equal. lia.
Qed.
Lemma along_acts a : a < D -> exists G, sg_translations_along L a = Ok G /\ degree G = N /\ Forall2 (acts L) (elems G) (map (fun k => back (along a k)) (steps L a)).
Proof.
  intros Ha. unfold sg_translations_along, steps. destruct (nth a (g_pbc (gl_geom L)) false) eqn:P.
  - assert (B : box_symmetry L (minus_basis a)).
    { apply (symmetry_ext (back (along a 1))); [|now apply back_symmetry, along_disp].
      intros v d _. unfold back, minus_basis, along. destruct (Nat.eqb d a); reflexivity. }
    destruct (permutation_main L PL _ B) as (p & E & Bp). rewrite E. cbn [bind].
    assert (At : acts L (EPerm p) (back (along a 1))).
    { split; [right; eauto|]. split; [exact (proj1 Bp)|]. apply (belongs_ext L (minus_basis a)); [|exact Bp].
      intros i _. apply same_ext. intros d _. unfold back, minus_basis, along. destruct (Nat.eqb d a); reflexivity. }
    assert (A0 : acts L EId (back (along a 0))).
    { eapply acts_ext; [|apply acts_id]. intros i _. apply same_ext. intros d _. unfold back, along. destruct (Nat.eqb d a); rewrite zc_0; ring. }
    pose proof (extent_pos a Ha) as Ep. set (e := nth a (g_extent (gl_geom L)) 0%Z) in *.
    destruct (power_acts a _ At (Z.to_nat e - 1) EId 0%Z A0) as (l & El & F). rewrite El. cbn [bind].
    eexists. split; [reflexivity|]. split; [reflexivity|]. cbn [elems]. replace (Z.to_nat e) with (S (Z.to_nat e - 1)) by lia.
    rewrite map_map. cbn [seq map]. constructor; [exact A0|]. rewrite <- seq_shift, map_map. erewrite map_ext; [exact F|].
    intros i. cbn beta. do 2 f_equal. lia.
  - eexists. split; [reflexivity|]. split; [reflexivity|]. cbn [elems seq map]. constructor; [|constructor].
    eapply acts_ext; [|apply acts_id]. intros i _. apply same_ext. intros d _. unfold back, along. change (Z.of_nat 0) with 0%Z. destruct (Nat.eqb d a); rewrite zc_0; ring.
Qed.

Lemma forall2_prod {A B C A' B' C'} (RA : A -> A' -> Prop) (RB : B -> B' -> Prop) (RC : C -> C' -> Prop) (f : A * B -> res C) (h : A' * B' -> C') la la' lb lb' :
  Forall2 RA la la' -> Forall2 RB lb lb' -> (forall a b a' b', In b' lb' -> RA a a' -> RB b b' -> exists c, f (a, b) = Ok c /\ RC c (h (a', b'))) ->
  exists l, sequence (map f (list_prod la lb)) = Ok l /\ Forall2 RC l (map h (list_prod la' lb')).
Proof.
  intros FA FB H. induction FA as [|a a' la la' Ra FA (l & E & F)]; cbn [list_prod map sequence].
  - exists []. split; [reflexivity|constructor].
  - assert (G : exists l1, sequence (map f (map (fun y => (a, y)) lb)) = Ok l1 /\ Forall2 RC l1 (map h (map (fun y => (a', y)) lb'))).
    { clear E F l. induction FB as [|b b' lb lb' Rb FB IH]; cbn [map sequence]; [exists []; split; [reflexivity|constructor]|].
      destruct (H a b a' b' (or_introl eq_refl) Ra Rb) as (c & Ec & Rc). rewrite Ec. cbn [bind].
      destruct IH as (l1 & E1 & F1); [intros; apply H; auto; now right|]. rewrite E1. cbn [bind]. exists (c :: l1). split; [reflexivity|now constructor]. }
    destruct G as (l1 & E1 & F1). exists (l1 ++ l). split.
    + rewrite map_app. clear - E E1. revert l1 E1. generalize (map f (map (fun y => (a, y)) lb)). intros r. induction r as [|x r IH]; intros l1 E1; cbn in *.
      * injection E1 as <-. exact E.
      * destruct x as [x|]; [|discriminate]. cbn in *. destruct (sequence r) as [t|]; [|discriminate]. cbn in *. injection E1 as <-.
        rewrite (IH t eq_refl). reflexivity.
    + rewrite map_app. now apply Forall2_app.
Qed.
Lemma group_prod_acts A B fs hs : degree A = N -> degree B = N -> Forall2 (acts L) (elems A) fs -> Forall2 (acts L) (elems B) hs -> (forall h, In h hs -> respects h) ->
  exists C, group_prod A B = Ok C /\ degree C = N /\ Forall2 (acts L) (elems C) (map (fun fh => fun v => snd fh (fst fh v)) (list_prod fs hs)).
Proof.
  intros DA DB FA FB R. unfold group_prod. rewrite DA, DB, Nat.eqb_refl. cbn [negb].
  destruct (forall2_prod (acts L) (acts L) (acts L) (fun ab => prod (fst ab) (snd ab)) (fun fh => fun v => snd fh (fst fh v)) (elems A) fs (elems B) hs FA FB) as (l & E & F).
  - intros a b f h Hh Ha Hb. cbn [fst snd]. apply acts_prod; auto. now apply R.
  - rewrite E. cbn [bind]. eexists. split; [reflexivity|]. split; [reflexivity|exact F].
Qed.

Lemma tuples_snoc axes a : tuples L (axes ++ [a]) = flat_map (fun t => map (fun k => t ++ [k]) (steps L a)) (tuples L axes).
Proof. unfold tuples. now rewrite fold_left_app. Qed.
Lemma tuples_in axes : forall t, In t (tuples L axes) <-> Forall2 (fun k a => In k (steps L a)) t axes.
Proof.
  induction axes as [|a axes IH] using rev_ind; intros t.
  - cbn. split; [intros [<-|[]]; constructor|]. intros H. inversion H. now left.
  - rewrite tuples_snoc, in_flat_map. split.
    + intros (t0 & H0 & H). apply in_map_iff in H. destruct H as (k & <- & Hk). apply Forall2_app; [now apply IH|]. constructor; [exact Hk|constructor].
    + intros H. apply Forall2_app_inv_r in H. destruct H as (t0 & l & H0 & H & ->). inversion H as [|k ? ? ? Hk H']; subst. inversion H'; subst.
      exists t0. split; [now apply IH|]. apply in_map_iff. eauto.
Qed.
Lemma tuples_len axes t : In t (tuples L axes) -> length t = length axes.
Proof. intros H. apply tuples_in in H. induction H; cbn; auto. Qed.
Lemma steps_nodup a : NoDup (steps L a).
Proof. unfold steps. apply FinFun.Injective_map_NoDup; [intros x y; lia|apply seq_NoDup]. Qed.
Lemma nodup_app {A} (l l' : list A) : NoDup l -> NoDup l' -> (forall x, In x l -> ~ In x l') -> NoDup (l ++ l').
Proof.
  induction 1 as [|x l Hx N1 IH]; intros N2 H; [exact N2|]. cbn. constructor.
  - rewrite in_app_iff. intros [I|I]; [contradiction|]. apply (H x); [now left|exact I].
  - apply IH; [exact N2|]. intros y Hy. apply H. now right.
Qed.
Lemma tuples_nodup axes : NoDup (tuples L axes).
Proof.
  induction axes as [|a axes IH] using rev_ind; [repeat constructor; auto|]. rewrite tuples_snoc. revert IH. generalize (tuples L axes). intros ts.
  induction 1 as [|t ts Ht Nts IH]; cbn [flat_map]; [constructor|]. apply nodup_app; [|exact IH|].
  - apply FinFun.Injective_map_NoDup; [|apply steps_nodup]. intros x y E. apply app_inv_head in E. now injection E.
  - intros x Hx Hx'. apply in_map_iff in Hx. destruct Hx as (k & <- & _). apply in_flat_map in Hx'. destruct Hx' as (t' & Ht' & Hx').
    apply in_map_iff in Hx'. destruct Hx' as (k' & E & _). apply app_inj_tail in E. destruct E as [-> _]. contradiction.
Qed.
Lemma shift_snoc axes t a k d : length t = length axes -> shift_of (axes ++ [a]) (t ++ [k]) d = (shift_of axes t d + along a k d)%Z.
Proof.
  revert t. induction axes as [|b axes IH]; intros [|j t] E; try discriminate; cbn [app shift_of].
  - unfold along. lia.
  - rewrite IH by (cbn in E; lia). lia.
Qed.
Lemma list_prod_maps {A B A' B'} (f : A -> A') (h : B -> B') l l' : list_prod (map f l) (map h l') = flat_map (fun x => map (fun y => (f x, h y)) l') l.
Proof. induction l as [|x l IH]; [reflexivity|]. cbn [map list_prod flat_map]. rewrite IH. f_equal. now rewrite map_map. Qed.
Lemma map_flat_map {A B C} (f : B -> C) (h : A -> list B) l : map f (flat_map h l) = flat_map (fun x => map f (h x)) l.
Proof. induction l as [|x l IH]; [reflexivity|]. cbn. now rewrite map_app, IH. Qed.
Definition shifts (axes : list nat) := map (fun t => back (shift_of axes t)) (tuples L axes).
Lemma flat_ext {A B C} (R : C -> B -> Prop) (R' : C -> B -> Prop) (u u' : A -> list B) es l :
  (forall x, In x l -> forall es', Forall2 R es' (u x) -> Forall2 R' es' (u' x)) -> Forall2 R es (flat_map u l) -> Forall2 R' es (flat_map u' l).
Proof.
  revert es. induction l as [|x l IH]; intros es H F; cbn in *; [inversion F; constructor|].
  apply Forall2_app_inv_r in F. destruct F as (e1 & e2 & F1 & F2 & ->). apply Forall2_app; [now apply H; [left|]|]. apply IH; [|exact F2]. intros y Hy. apply H. now right.
Qed.
Lemma shifts_snoc axes a es : Forall2 (acts L) es (map (fun fh => fun v => snd fh (fst fh v)) (list_prod (shifts axes) (map (fun k => back (along a k)) (steps L a)))) ->
  Forall2 (acts L) es (shifts (axes ++ [a])).
Proof.
  unfold shifts. rewrite list_prod_maps, tuples_snoc, !map_flat_map. apply flat_ext. intros t Ht es'. rewrite !map_map. cbn [fst snd].
  rewrite !forall2_map_r. apply forall2_impl. intros e k Ae. eapply acts_ext; [|exact Ae]. intros i _. apply same_ext. intros d _. unfold back.
  rewrite shift_snoc by now apply tuples_len. rewrite zc_add. ring.
Qed.
Lemma reduce_acts axes : forall done acc gs, degree acc = N -> Forall2 (acts L) (elems acc) (shifts done) ->
  Forall2 (fun g a => degree g = N /\ Forall2 (acts L) (elems g) (map (fun k => back (along a k)) (steps L a))) gs axes ->
  exists C, reduce_prod acc gs = Ok C /\ degree C = N /\ Forall2 (acts L) (elems C) (shifts (done ++ axes)).
Proof.
  induction axes as [|a axes IH]; intros done acc gs Da Fa Fg; inversion Fg as [|g ? gs' ? [Dg Eg] Fg']; subst; cbn [reduce_prod].
  - rewrite app_nil_r. eauto.
  - destruct (group_prod_acts acc g _ _ Da Dg Fa Eg) as (C & E & Dc & Fc).
    { intros h Hh. apply in_map_iff in Hh. destruct Hh as (k & <- & _). apply back_respects. }
    rewrite E. cbn [bind]. apply shifts_snoc in Fc. destruct (IH (done ++ [a]) C gs' Dc Fc Fg') as (C' & E' & Dc' & Fc').
    exists C'. split; [exact E'|]. split; [exact Dc'|]. now rewrite <- app_assoc in Fc'.
Qed.
Lemma translations_acts axes : axes <> [] -> (forall a, In a axes -> a < D) ->
  exists G, sg_translation_group L (Some axes) = Ok G /\ degree G = N /\ Forall2 (acts L) (elems G) (shifts axes).
Proof.
  intros NE H. unfold sg_translation_group.
  destruct (seq_forall2 (sg_translations_along L) (fun g a => degree g = N /\ Forall2 (acts L) (elems g) (map (fun k => back (along a k)) (steps L a))) (fun a => a) axes) as (gs & E & F).
  { intros a Ha. destruct (along_acts a (H a Ha)) as (G & E & Dg & Fg). eauto. }
  rewrite E. cbn [bind]. rewrite map_id in F. destruct axes as [|a axes]; [contradiction|]. inversion F as [|g ? gs' ? [Dg Fg] F']; subst.
  destruct (reduce_acts axes [a] g gs' Dg) as (C & EC & DC & FC); [|exact F'|eauto].
  unfold shifts, tuples. cbn [fold_left flat_map]. rewrite app_nil_r, map_map. cbn [app shift_of].
  rewrite forall2_map_r in Fg |- *. eapply forall2_impl; [|exact Fg]. intros e k Ae. eapply acts_ext; [|exact Ae]. intros i _. apply same_ext. intros d _.
  unfold back, along. now rewrite Z.add_0_r.
Qed.
Lemma full_translations : 0 < D -> exists G, sg_translation_group L None = Ok G /\ degree G = N /\ Forall2 (acts L) (elems G) (shifts (seq 0 D)).
Proof.
  intros HD. destruct (translations_acts (seq 0 D)) as (G & E & R).
  - destruct D; [lia|discriminate].
  - intros a Ha. apply in_seq in Ha. lia.
  - exists G. split; [exact E|exact R].
Qed.
End Groups.
