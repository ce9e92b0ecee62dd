(** Proofs behind C87: translations and space groups are groups; edges. *)
From Coq Require Import List Arith Bool ZArith QArith Qcanon Permutation Lia.
From Verif Require Import Base BaseFacts Rings FloatCmp_Model FloatCmp_Proofs Lattice_Model Lattice_Spec LatGen_Model LatGen_Spec LatGen_Proofs LatGen_Look
  PointGp_Model PointGp_Spec PointGp_Lin PointGp_Proofs PointGp_Tables PointGp_Group
  Group_Model Group_Spec Group_Proofs Lattice_Trans SpaceGp_Model SpaceGp_Spec SpaceGp_Proofs SpaceGp_Group.
Import ListNotations.
Open Scope nat_scope.

Section Space.
Variable L : glattice.
Hypothesis PL : proper_lattice L.
Hypothesis FL : full_lattice L.
Let N := n_nodes L.
Let D := dimension L.
Let e d := nth d (g_extent (gl_geom L)) 0%Z.
Let pbc d := nth d (g_pbc (gl_geom L)) false.

Definition period (n : nat -> Z) : Prop := forall d, d < D -> pbc d = false -> n d = 0%Z.
Lemma steps_in a k : a < D -> (In k (steps L a) <-> if pbc a then (0 <= k < e a)%Z else k = 0%Z).
Proof.
  intros Ha. pose proof (extent_pos L PL a Ha) as Ep. unfold steps. fold (pbc a) (e a) in *. rewrite in_map_iff. split.
  - intros (n & <- & H). apply in_seq in H. destruct (pbc a); lia.
  - intros H. exists (Z.to_nat k). destruct (pbc a); split; try apply in_seq; lia.
Qed.
Definition red (a : nat) (k : Z) : Z := if pbc a then (k mod e a)%Z else 0%Z.
Lemma red_in a k : a < D -> In (red a k) (steps L a).
Proof.
  intros Ha. apply steps_in; [exact Ha|]. unfold red. pose proof (extent_pos L PL a Ha) as Ep. fold (e a) in Ep.
  destruct (pbc a); [apply Z.mod_pos_bound; lia|reflexivity].
Qed.
Lemma shift_disp axes t : (forall a, In a axes -> a < D) -> Forall2 (fun k a => In k (steps L a)) t axes -> displacement L (shift_of axes t).
Proof.
  intros Ha H. induction H as [|k a t axes Hk H IH]; intros d Hd Pd; cbn [shift_of]; [reflexivity|].
  rewrite IH by (try assumption; intros; apply Ha; now right). destruct (Nat.eqb_spec d a) as [->|]; [|reflexivity].
  apply steps_in in Hk; [|apply Ha; now left]. unfold pbc in Hk. rewrite Pd in Hk. lia.
Qed.
Lemma shift_sum axes t t' : (forall a, In a axes -> a < D) -> Forall2 (fun k a => In k (steps L a)) t axes -> Forall2 (fun k a => In k (steps L a)) t' axes ->
  exists t'' n, Forall2 (fun k a => In k (steps L a)) t'' axes /\ period n /\ forall d, (shift_of axes t d + shift_of axes t' d = shift_of axes t'' d + n d * e d)%Z.
Proof.
  intros Ha H. revert t'. induction H as [|k a t axes Hk H IH]; intros t' H'; inversion H' as [|k' ? t0 ? Hk' H0]; subst.
  - exists [], (fun _ => 0%Z). split; [constructor|]. split; [intros d _ _; reflexivity|]. reflexivity.
  - destruct (IH (fun b Hb => Ha b (or_intror Hb)) t0 H0) as (t'' & n & A & B & C).
    assert (La : a < D) by (apply Ha; now left). pose proof (extent_pos L PL a La) as Ep. fold (e a) in Ep.
    apply steps_in in Hk, Hk'; try exact La.
    exists (red a (k + k') :: t''), (fun d => (if Nat.eqb d a then if pbc a then (k + k') / e a else 0 else 0) + n d)%Z. split; [|split].
    + constructor; [now apply red_in|exact A].
    + intros d Hd Pd. rewrite (B d Hd Pd). destruct (Nat.eqb_spec d a) as [->|]; [|reflexivity]. now rewrite Pd.
    + intros d. cbn [shift_of]. specialize (C d). destruct (Nat.eqb_spec d a) as [->|]; [|lia]. unfold red. destruct (pbc a).
      * pose proof (Z.div_mod (k + k') (e a) ltac:(lia)). lia.
      * lia.
Qed.
Lemma shift_opp axes t : (forall a, In a axes -> a < D) -> Forall2 (fun k a => In k (steps L a)) t axes ->
  exists t' n, Forall2 (fun k a => In k (steps L a)) t' axes /\ period n /\ forall d, (shift_of axes t d + shift_of axes t' d = n d * e d)%Z.
Proof.
  intros Ha H. induction H as [|k a t axes Hk H IH].
  - exists [], (fun _ => 0%Z). split; [constructor|]. split; [intros d _ _; reflexivity|]. reflexivity.
  - destruct (IH (fun b Hb => Ha b (or_intror Hb))) as (t' & n & A & B & C).
    assert (La : a < D) by (apply Ha; now left). pose proof (extent_pos L PL a La) as Ep. fold (e a) in Ep.
    apply steps_in in Hk; try exact La.
    exists (red a (- k) :: t'), (fun d => n d - (if Nat.eqb d a then if pbc a then (- k) / e a else 0 else 0))%Z. split; [|split].
    + constructor; [now apply red_in|exact A].
    + intros d Hd Pd. rewrite (B d Hd Pd). destruct (Nat.eqb_spec d a) as [->|]; [|reflexivity]. now rewrite Pd.
    + intros d. cbn [shift_of]. specialize (C d). destruct (Nat.eqb_spec d a) as [->|]; [|lia]. unfold red. destruct (pbc a).
      * pose proof (Z.div_mod (- k) (e a) ltac:(lia)). lia.
      * lia.
Qed.
Lemma back_same m m' n : period n -> (forall d, d < D -> (m d = m' d + n d * e d)%Z) -> forall v, same_point L (back m v) (back m' v).
Proof.
  intros Pn H v. exists (fun d => - n d)%Z. split; [intros d Hd Pd; now rewrite (Pn d Hd Pd)|]. intros d Hd. unfold back. rewrite (H d Hd).
  fold (e d). rewrite Z.mul_opp_l, zc_add, zc_opp. ring.
Qed.
Lemma translations_group axes : axes <> [] -> (forall a, In a axes -> a < D) ->
  exists G, sg_translation_group L (Some axes) = Ok G /\ degree G = N /\ Forall (wf N) (elems G) /\
    Forall2 (fun g t => belongs L (back (shift_of axes t)) (perm_of N g)) (elems G) (tuples L axes) /\ is_group N (perms G).
Proof.
  intros NE Ha. destruct (translations_acts L PL FL axes NE Ha) as (G & E & Dg & F). exists G. split; [exact E|]. split; [exact Dg|].
  split; [|split].
  - apply Forall_forall. intros g Hg. destruct (forall2_in_l _ _ _ _ F Hg) as (f & _ & _ & W & _). exact W.
  - pose proof (proj1 (forall2_map_r _ _ _ _) F) as F'. eapply forall2_impl; [|exact F']. intros g t (_ & _ & B). exact B.
  - unfold perms. rewrite Dg. apply (group_of_maps L PL _ (shifts L axes)); [|exact F| | |].
    + unfold shifts. intros H. apply map_eq_nil in H.
      assert (I : In (map (fun a => red a 0) axes) (tuples L axes)).
      { apply tuples_in. clear E F G Dg NE H. induction axes as [|a axes IH]; cbn [map]; [constructor|]. constructor; [apply red_in, Ha; now left|apply IH; intros b Hb; apply Ha; now right]. }
      rewrite H in I. exact I.
    + intros f Hf. apply in_map_iff in Hf. destruct Hf as (t & <- & _). apply back_respects.
    + intros f h Hf Hh. apply in_map_iff in Hf, Hh. destruct Hf as (t & <- & Ht), Hh as (t' & <- & Ht'). apply tuples_in in Ht, Ht'.
      destruct (shift_sum axes t t' Ha Ht Ht') as (t'' & n & A & B & C). exists (back (shift_of axes t'')). split.
      * apply in_map_iff. exists t''. split; [reflexivity|now apply tuples_in].
      * intros v. eapply same_trans; [|apply (back_same (fun d => shift_of axes t d + shift_of axes t' d)%Z _ n B); intros d _; apply C].
        apply same_ext. intros d _. unfold back. rewrite zc_add. ring.
    + intros f Hf. apply in_map_iff in Hf. destruct Hf as (t & <- & Ht). apply tuples_in in Ht.
      destruct (shift_opp axes t Ha Ht) as (t' & n & A & B & C). exists (back (shift_of axes t')). split.
      * apply in_map_iff. exists t'. split; [reflexivity|now apply tuples_in].
      * assert (Z0 : forall v, same_point L (back (fun d => shift_of axes t d + shift_of axes t' d)%Z v) v).
        { intros v. eapply same_trans; [apply (back_same _ (fun _ => 0%Z) n B); intros d _; rewrite C; reflexivity|]. apply same_ext. intros d _. unfold back. rewrite zc_0. ring. }
        intros v. split; (eapply same_trans; [|apply Z0]); apply same_ext; intros d _; unfold back; rewrite zc_add; ring.
Qed.

Lemma shift_notin axes t d : ~ In d axes -> shift_of axes t d = 0%Z.
Proof.
  revert t. induction axes as [|a axes IH]; intros [|k t] H; cbn [shift_of]; try reflexivity. rewrite IH by (intros C; apply H; now right).
  destruct (Nat.eqb_spec d a) as [->|]; [|reflexivity]. exfalso. apply H. now left.
Qed.
Lemma shift_eq axes t t' : NoDup axes -> length t = length axes -> length t' = length axes -> (forall d, In d axes -> shift_of axes t d = shift_of axes t' d) -> t = t'.
Proof.
  intros H. revert t t'. induction H as [|a axes Ha H IH]; intros [|k t] [|k' t'] E E' S; try discriminate; [reflexivity|].
  assert (k = k').
  { specialize (S a (or_introl eq_refl)). cbn [shift_of] in S. rewrite Nat.eqb_refl, !shift_notin in S by exact Ha. lia. }
  subst k'. f_equal. apply IH; [cbn in E; lia|cbn in E'; lia|]. intros d Hd. specialize (S d (or_intror Hd)). cbn [shift_of] in S. lia.
Qed.
Lemma shift_range axes t d : NoDup axes -> (forall a, In a axes -> a < D) -> Forall2 (fun k a => In k (steps L a)) t axes -> In d axes -> In (shift_of axes t d) (steps L d).
Proof.
  intros Nd Ha H. induction H as [|k a t axes Hk H IH]; intros Hd; [destruct Hd|]. cbn [shift_of]. inversion Nd as [|? ? Na Nd']; subst.
  destruct (Nat.eqb_spec d a) as [->|Ne].
  - rewrite shift_notin by exact Na. now rewrite Z.add_0_r.
  - destruct Hd as [->|Hd]; [contradiction|]. apply IH; auto. intros b Hb. apply Ha. now right.
Qed.
Lemma sites_exist : 0 < N.
Proof.
  pose proof (extent_pos L PL) as Ep. unfold D, dimension in Ep. destruct PL as (g & V & Sh & HL & Sep). destruct (L_facts g L V HL) as (Eg & _ & _).
  assert (B : of_box (gl_geom L) (map (fun _ => 0%Z) (g_extent g) ++ [0%Z])).
  { rewrite Eg. apply app_box.
    - apply (in_box_nth L). split; [apply map_length|]. intros d Hd. rewrite Eg in Ep. specialize (Ep d Hd).
      assert (E0 : nth d (map (fun _ : Z => 0%Z) (g_extent g)) 0%Z = 0%Z) by exact (map_nth (fun _ : Z => 0%Z) (g_extent g) 0%Z d). rewrite E0. lia.
    - destruct V as (_ & _ & V). destruct (g_offsets g); [contradiction|]. cbn [length]. lia. }
  apply FL in B. unfold N, n_nodes. destruct (gl_sites L); [destruct B|cbn; lia].
Qed.
Lemma back_differ i m m' : i < N -> displacement L m -> displacement L m' -> same_point L (back m (place L i)) (back m' (place L i)) ->
  forall d, d < D -> exists k, (m d = m' d + (if pbc d then k * e d else 0))%Z.
Proof.
  intros Hi Hm Hm' [n [A B]] d Hd. specialize (B d Hd). unfold back in B. fold (e d) in B.
  assert (E : zc (m' d) = zc (m d + n d * e d)) by (rewrite zc_add; transitivity (place L i d - (place L i d - zc (m' d)))%Qc; [ring|];
    replace (place L i d - zc (m' d))%Qc with ((place L i d - zc (m d)) - zc (n d * e d))%Qc by (rewrite B; ring); ring).
  apply zc_inj in E. exists (- n d)%Z. destruct (pbc d) eqn:P; [lia|]. specialize (A d Hd P). rewrite A in E. lia.
Qed.
Lemma translations_distinct axes : axes <> [] -> NoDup axes -> (forall a, In a axes -> a < D) ->
  exists G, sg_translation_group L (Some axes) = Ok G /\ NoDup (perms G).
Proof.
  intros NE Nd Ha. destruct (translations_group axes NE Ha) as (G & E & Dg & W & F & _). exists G. split; [exact E|]. unfold perms. rewrite Dg.
  assert (Q : forall t t' p, In t (tuples L axes) -> In t' (tuples L axes) -> belongs L (back (shift_of axes t)) p -> belongs L (back (shift_of axes t')) p -> t = t').
  { intros t t' p Ht Ht' [P1 P2] [_ P3]. pose proof sites_exist as Hn.
    assert (Sp : same_point L (back (shift_of axes t) (place L 0)) (back (shift_of axes t') (place L 0))).
    { eapply same_trans; [apply P2, Hn|apply same_sym, P3, Hn]. }
    apply tuples_in in Ht, Ht'. apply (shift_eq axes); auto.
    - clear - Ht. induction Ht; cbn; auto.
    - clear - Ht'. induction Ht'; cbn; auto.
    - intros d Hd. destruct (back_differ 0 _ _ Hn (shift_disp _ _ Ha Ht) (shift_disp _ _ Ha Ht') Sp d (Ha d Hd)) as (k & Ek).
      pose proof (shift_range _ _ d Nd Ha Ht Hd) as R1. pose proof (shift_range _ _ d Nd Ha Ht' Hd) as R2.
      apply steps_in in R1, R2; try (now apply Ha). destruct (pbc d); [|lia]. assert (k = 0%Z) by nia. lia. }
  pose proof (tuples_nodup L axes) as ND. clear W. revert Q ND F. generalize (elems G) (tuples L axes). intros es ts Q ND F.
  induction F as [|x t es ts Hx F IH]; cbn [map]; [constructor|]. inversion ND as [|? ? N1 N2]; subst. constructor.
  - intros I. apply in_map_iff in I. destruct I as (y & Ey & Hy). destruct (forall2_in_l _ _ _ _ F Hy) as (t' & Ht' & Bt').
    rewrite Ey in Bt'. assert (t = t') by (apply (Q _ _ (perm_of N x)); [now left|now right|exact Hx|exact Bt']). subst. contradiction.
  - apply IH; [|exact N2]. intros u u' p Hu Hu'. apply Q; now right.
Qed.

(** ** the space group *)
Lemma map_of_ext p u v : (forall d, d < D -> u d = v d) -> forall d, d < D -> map_of L p u d = map_of L p v d.
Proof.
  intros H d Hd. destruct p as [|s]; cbn [map_of]; [now apply H|]. unfold fpre, mvec. f_equal. apply qs_ext. intros i Hi. now rewrite H.
Qed.
Variable l : list psym.
Hypothesis GM : group_mod_cells L l.
Hypothesis AS : forall p, In p l -> box_symmetry L (map_of L p).
Definition agree (u v : vec) : Prop := forall d, d < D -> u d = v d.
Lemma left_inj p u v : In p l -> agree (map_of L p u) (map_of L p v) -> agree u v.
Proof.
  intros Hp H. destruct GM as (_ & _ & _ & I). destruct (I p Hp) as (q & m & Hq & Dm & E). intros d Hd.
  pose proof (E u d Hd) as Eu. pose proof (E v d Hd) as Ev. rewrite (map_of_ext q _ _ H d Hd) in Eu. rewrite Ev in Eu. unfold vplus in Eu.
  transitivity (u d + zc (m d) - zc (m d))%Qc; [ring|]. rewrite <- Eu. ring.
Qed.
Lemma pull p m : In p l -> displacement L m -> exists m', displacement L m' /\ forall v, agree (vplus (map_of L p v) m) (map_of L p (vplus v m')).
Proof.
  intros Hp Hm. destruct GM as (_ & In_ & _ & I). destruct (I p Hp) as (q & s & Hq & Ds & E). destruct (In_ q Hq m Hm) as (m' & Dm' & E').
  exists m'. split; [exact Dm'|]. intros v. apply (left_inj q _ _ Hq). intros d Hd. rewrite E' by exact Hd. unfold vplus at 1.
  rewrite E by exact Hd. rewrite E by exact Hd. unfold vplus. ring.
Qed.
Lemma rep m : displacement L m -> exists t, In t (tuples L (seq 0 D)) /\ forall v, same_point L (back m v) (back (shift_of (seq 0 D) t) v).
Proof.
  intros Hm. exists (map (fun d => red d (m d)) (seq 0 D)).
  assert (HD : forall d, In d (seq 0 D) -> d < D) by (intros d Hd; apply in_seq in Hd; lia).
  split.
  - apply tuples_in. revert HD. generalize (seq 0 D). intros ax HD. induction ax as [|a ax IH]; cbn [map]; [constructor|]. constructor; [apply red_in, HD; now left|apply IH; intros b Hb; apply HD; now right].
  - assert (S : forall ax, NoDup ax -> forall d, In d ax -> shift_of ax (map (fun d => red d (m d)) ax) d = red d (m d)).
    { clear HD. induction 1 as [|a ax Na Nx IH]; intros d Hd; [destruct Hd|]. cbn [map shift_of]. destruct (Nat.eqb_spec d a) as [->|Ne].
      - rewrite shift_notin by exact Na. lia.
      - destruct Hd as [->|Hd]; [contradiction|]. now rewrite IH. }
    apply (back_same _ _ (fun d => if pbc d then (m d / e d)%Z else 0%Z)).
    + intros d _ ->. reflexivity.
    + intros d Hd. rewrite S by (try apply seq_NoDup; apply in_seq; lia). unfold red. destruct (pbc d) eqn:P.
      * pose proof (extent_pos L PL d Hd) as Ep. fold (e d) in Ep. pose proof (Z.div_mod (m d) (e d) ltac:(lia)). lia.
      * rewrite (Hm d Hd P). reflexivity.
Qed.
Definition mover (p : psym) (m : nat -> Z) : vec -> vec := fun v => map_of L p (back m v).
Lemma mover_respects p m : In p l -> respects L (mover p m).
Proof. intros Hp v v' H. apply (respects_sym L _ (AS p Hp)), back_respects, H. Qed.
Lemma agree_same u v : agree u v -> same_point L u v.
Proof. apply same_ext. Qed.
Definition movers := map (fun fh => fun v => snd fh (fst fh v)) (list_prod (shifts L (seq 0 D)) (map (map_of L) l)).
Lemma movers_in f : In f movers <-> exists t p, In t (tuples L (seq 0 D)) /\ In p l /\ f = mover p (shift_of (seq 0 D) t).
Proof.
  unfold movers. rewrite in_map_iff. split.
  - intros ((a, b) & <- & H). apply in_prod_iff in H. destruct H as [H1 H2]. apply in_map_iff in H1, H2. destruct H1 as (t & <- & Ht), H2 as (p & <- & Hp).
    exists t, p. auto.
  - intros (t & p & Ht & Hp & ->). exists (back (shift_of (seq 0 D) t), map_of L p). split; [reflexivity|]. apply in_prod_iff. split; apply in_map_iff; eauto.
Qed.
Lemma mover_listed p m : In p l -> displacement L m -> exists k, In k movers /\ forall v, same_point L (mover p m v) (k v).
Proof.
  intros Hp Hm. destruct (rep m Hm) as (t & Ht & E). exists (mover p (shift_of (seq 0 D) t)). split; [apply movers_in; eauto|].
  intros v. apply (respects_sym L _ (AS p Hp)), E.
Qed.
Lemma tuple_disp t : In t (tuples L (seq 0 D)) -> displacement L (shift_of (seq 0 D) t).
Proof. intros H. apply tuples_in in H. apply shift_disp; [|exact H]. intros a Ha. apply in_seq in Ha. lia. Qed.
Lemma movers_closed f h : In f movers -> In h movers -> exists k, In k movers /\ forall v, same_point L (h (f v)) (k v).
Proof.
  intros Hf Hh. apply movers_in in Hf, Hh. destruct Hf as (t & p & Ht & Hp & ->), Hh as (t' & q & Ht' & Hq & ->).
  apply tuple_disp in Ht, Ht'. revert Ht Ht'. generalize (shift_of (seq 0 D) t) (shift_of (seq 0 D) t'). clear t t'. intros m m' Dm Dm'.
  destruct GM as (_ & _ & C & _). destruct (C p q Hp Hq) as (r & s & Hr & Ds & E).
  destruct (pull p (fun d => - m' d)%Z Hp (displacement_opp L m' Dm')) as (u & Du & Eu).
  destruct (pull r s Hr Ds) as (w & Dw & Ew).
  set (M := fun d => (m d - u d - w d)%Z).
  assert (DM : displacement L M) by (intros d Hd Pd; unfold M; rewrite Dm, Du, Dw by assumption; reflexivity).
  destruct (mover_listed r M Hr DM) as (k & Hk & Ek). exists k. split; [exact Hk|]. intros v. eapply same_trans; [|apply Ek]. apply agree_same.
  intros d Hd. unfold mover.
  assert (A1 : agree (back m' (map_of L p (back m v))) (map_of L p (vplus (back m v) u))).
  { intros c Hc. rewrite <- Eu by exact Hc. unfold back at 1, vplus. rewrite zc_opp. ring. }
  rewrite (map_of_ext q _ _ A1 d Hd), E by exact Hd. rewrite Ew by exact Hd. apply map_of_ext; [|exact Hd]. intros c Hc. unfold vplus, back, M. rewrite !zc_sub. ring.
Qed.
Lemma movers_inverse f : In f movers -> exists h, In h movers /\ undo L f h.
Proof.
  intros Hf. apply movers_in in Hf. destruct Hf as (t & p & Ht & Hp & ->). apply tuple_disp in Ht. revert Ht. generalize (shift_of (seq 0 D) t). clear t. intros m Dm.
  destruct GM as (_ & _ & _ & I). destruct (I p Hp) as (q & s & Hq & Ds & E).
  set (w := fun d => (m d - s d)%Z). assert (Dw : displacement L w) by (intros d Hd Pd; unfold w; rewrite Dm, Ds by assumption; reflexivity).
  destruct (pull q w Hq Dw) as (u & Du & Eu).
  destruct (mover_listed q (fun d => - u d)%Z Hq (displacement_opp L u Du)) as (h & Hh & Eh). exists h. split; [exact Hh|].
  assert (U1 : forall v, agree (mover q (fun d => - u d)%Z (mover p m v)) v).
  { intros v d Hd. unfold mover.
    transitivity (map_of L q (vplus (map_of L p (back m v)) u) d).
    { apply map_of_ext; [|exact Hd]. intros c Hc. unfold back at 1, vplus. rewrite zc_opp. ring. }
    rewrite <- Eu by exact Hd. unfold vplus at 1. rewrite E by exact Hd. unfold vplus, back, w. rewrite zc_sub. ring. }
  assert (U2 : forall v, agree (mover p m (mover q (fun d => - u d)%Z v)) v).
  { intros v. apply (left_inj q _ _ Hq). intros d Hd. unfold mover. rewrite E by exact Hd. unfold vplus at 1, back at 1.
    assert (A : map_of L q (back (fun d => - u d)%Z v) d = vplus (map_of L q v) w d).
    { rewrite Eu by exact Hd. apply map_of_ext; [|exact Hd]. intros c Hc. unfold back, vplus. rewrite zc_opp. ring. }
    rewrite A. unfold vplus, w. rewrite zc_sub. ring. }
  intros v. split.
  - eapply same_trans; [apply same_sym, Eh|]. apply agree_same, U1.
  - eapply same_trans; [|apply agree_same, U2]. apply mover_respects; [exact Hp|]. apply same_sym, Eh.
Qed.
Lemma space_group_main : 0 < D -> exists G, sg_space_group L l = Ok G /\ degree G = N /\ Forall (wf N) (elems G) /\
  Forall2 (fun g tp => belongs L (fun v => map_of L (snd tp) (back (shift_of (seq 0 D) (fst tp)) v)) (perm_of N g)) (elems G) (list_prod (tuples L (seq 0 D)) l) /\
  is_group N (perms G).
Proof.
  intros HD. destruct (full_translations L PL FL HD) as (T & ET & DT & FT). destruct (point_group_acts L PL l AS) as (P & EP & DP & FP).
  unfold sg_space_group. rewrite ET. cbn [bind]. rewrite EP. cbn [bind].
  destruct (group_prod_acts L T P _ _ DT DP FT FP) as (G & E & Dg & F).
  { intros h Hh. apply in_map_iff in Hh. destruct Hh as (p & <- & Hp). now apply respects_sym, AS. }
  exists G. split; [exact E|]. split; [exact Dg|]. split; [|split].
  - apply Forall_forall. intros g Hg. destruct (forall2_in_l _ _ _ _ F Hg) as (f & _ & _ & W & _). exact W.
  - change (dimension L) with D in F. unfold shifts in F. rewrite list_prod_maps, map_flat_map in F.
    assert (X : list_prod (tuples L (seq 0 D)) l = flat_map (fun t => map (fun p => (t, p)) l) (tuples L (seq 0 D))).
    { generalize (tuples L (seq 0 D)). intros ts. induction ts as [|t ts IH]; [reflexivity|]. cbn [list_prod flat_map]. now rewrite IH. }
    rewrite X. clear X. revert F. generalize (elems G) (tuples L (seq 0 D)). intros es ts. revert es.
    induction ts as [|t ts IH]; intros es F; cbn [flat_map] in *; [inversion F; subst; constructor|].
    apply Forall2_app_inv_r in F. destruct F as (e1 & e2 & F1 & F2 & ->). apply Forall2_app; [|now apply IH].
    rewrite map_map in F1. cbn [fst snd] in F1. pose proof (proj1 (forall2_map_r _ _ _ _) F1) as F1'. apply forall2_map_r. eapply forall2_impl; [|exact F1'].
    intros g p (_ & _ & B). exact B.
  - unfold perms. rewrite Dg. apply (group_of_maps L PL _ movers); [|exact F| | |].
    + intros H. destruct GM as (NE & _). assert (DZ : displacement L (fun _ => 0%Z)) by (intros d _ _; reflexivity).
      destruct (rep _ DZ) as (t & Ht & _). unfold movers, shifts in H. rewrite list_prod_maps in H. apply map_eq_nil in H. apply in_split in Ht. destruct Ht as (a & b & Ht). rewrite Ht in H.
      rewrite flat_map_app in H. apply app_eq_nil in H. destruct H as [_ H]. cbn [flat_map] in H. apply app_eq_nil in H. destruct H as [H _]. apply map_eq_nil in H. contradiction.
    + intros f Hf. apply movers_in in Hf. destruct Hf as (t & p & _ & Hp & ->). now apply mover_respects.
    + exact movers_closed.
    + exact movers_inverse.
Qed.
End Space.

(** ** edges *)
Section Edges.
Variable L : glattice.
Lemma same_distance f i j i' j' r2 : (forall v v', same_point L v v' -> same_point L (f v) (f v')) -> isometry L f ->
  same_point L (f (place L i)) (place L i') -> same_point L (f (place L j)) (place L j') ->
  (exists v, same_point L v (place L j) /\ qform L (vdiff (place L i) v) = r2) -> exists v, same_point L v (place L j') /\ qform L (vdiff (place L i') v) = r2.
Proof.
  intros R Is [n [A B]] Hj (v & Hv & Q). set (s := fun d => zc (n d * nth d (g_extent (gl_geom L)) 0%Z)).
  exists (fun d => f v d - s d)%Qc. split.
  - eapply same_trans; [|eapply same_trans; [apply R, Hv|exact Hj]].
    exists (fun d => - n d)%Z. split; [intros d Hd Pd; now rewrite (A d Hd Pd)|]. intros d Hd. unfold s. rewrite Z.mul_opp_l, zc_opp. ring.
  - rewrite <- Q, <- (Is (place L i) v). unfold qform. apply qs_ext. intros d Hd. apply qs_ext. intros c Hc. unfold vdiff.
    rewrite (B d Hd), (B c Hc). fold (s d) (s c). ring.
Qed.
Lemma edges_kept f h p r2 : proper_lattice L -> edges_at L r2 -> maps_sites L f -> maps_sites L h -> undo L f h -> isometry L f -> isometry L h -> belongs L f p ->
  forall i j, i < n_nodes L -> j < n_nodes L -> i <> j -> (joined L i j <-> joined L (nth i p 0) (nth j p 0)).
Proof.
  intros PL Ed [Rf _] [Rh _] U If Ih [P1 P2] i j Hi Hj Ne.
  assert (Rg : forall k, k < n_nodes L -> nth k p 0 < n_nodes L).
  { intros k Hk. apply (isperm_lt (n_nodes L) p); [exact P1|]. apply nth_In. now rewrite (isperm_len _ _ P1). }
  assert (Bk : forall k, k < n_nodes L -> same_point L (h (place L (nth k p 0))) (place L k)).
  { intros k Hk. eapply same_trans; [apply Rh, same_sym, P2, Hk|]. apply U. }
  assert (Ne' : nth i p 0 <> nth j p 0).
  { intros E. apply Ne. apply (same_site L PL); auto. eapply same_trans; [apply same_sym, Bk, Hi|]. rewrite E. now apply Bk. }
  rewrite (Ed i j Hi Hj Ne), (Ed _ _ (Rg i Hi) (Rg j Hj) Ne'). split.
  - apply (same_distance f); auto.
  - apply (same_distance h); auto.
Qed.
End Edges.

(** ** components with respect to the basis *)
Lemma basis_form_main U Ui p v d : components (p_n p) Ui (preimage p (cartesian (p_n p) U v)) d = fpre (p_n p) (basis_form U Ui p) v d.
Proof.
  set (n := p_n p). unfold components, preimage, cartesian, fpre, basis_form. cbn [f_A f_b]. fold n. unfold mvec.
  rewrite (qs_ext n _ (fun k => (qs n (fun a => qs n (fun b => v b * (U b a * p_W p a k))) * Ui k d + qs n (fun j => - p_w p j * p_W p j k) * Ui k d)%Qc)).
  - rewrite qs_add. f_equal.
    rewrite (qs_ext n _ (fun k => qs n (fun b => v b * (qs n (fun a => U b a * p_W p a k) * Ui k d)))%Qc).
    + rewrite qs_swap. apply qs_ext. intros b Hb. rewrite qs_scal. ring.
    + intros k Hk. rewrite (qs_swap n n (fun a b => v b * (U b a * p_W p a k))%Qc).
      rewrite <- qs_scal_r. apply qs_ext. intros b Hb. rewrite qs_scal. ring.
  - intros k Hk. rewrite <- Qcmult_plus_distr_l. f_equal. rewrite <- qs_add. apply qs_ext. intros a Ha.
    rewrite (qs_ext n (fun b => v b * (U b a * p_W p a k))%Qc (fun b => v b * U b a * p_W p a k)%Qc) by (intros; ring). rewrite qs_scal_r.
    generalize (qs n (fun k0 => v k0 * U k0 a)%Qc : Qc). intros X. ring.
Qed.

Lemma translations_any L axes o : proper_lattice L -> full_lattice L -> (o = Some axes \/ o = None /\ axes = seq 0 (dimension L)) -> axes <> [] -> (forall a, In a axes -> a < dimension L) ->
  exists G, sg_translation_group L o = Ok G /\ degree G = n_nodes L /\ Forall (wf (n_nodes L)) (elems G) /\
    Forall2 (fun g t => belongs L (back (shift_of axes t)) (perm_of (n_nodes L) g)) (elems G) (tuples L axes) /\ is_group (n_nodes L) (perms G) /\
    (NoDup axes -> NoDup (perms G)).
Proof.
  intros PL FL Ho NE Ha. destruct (translations_group L PL FL axes NE Ha) as (G & E & R1 & R2 & R3 & R4). exists G.
  assert (Eo : sg_translation_group L o = Ok G) by (destruct Ho as [->|[-> ->]]; exact E).
  split; [exact Eo|]. split; [exact R1|]. split; [exact R2|]. split; [exact R3|]. split; [exact R4|].
  intros Nd. destruct (translations_distinct L PL FL axes NE Nd Ha) as (G' & E' & D'). congruence.
Qed.
Lemma translations_complete L : proper_lattice L -> full_lattice L -> 0 < dimension L -> forall m, displacement L m ->
  exists G g, sg_translation_group L None = Ok G /\ In g (elems G) /\ belongs L (back m) (perm_of (n_nodes L) g).
Proof.
  intros PL FL HD m Dm. destruct (full_translations L PL FL HD) as (G & E & _ & F). destruct (rep L PL m Dm) as (t & Ht & Et).
  destruct (forall2_in_r _ _ _ (back (shift_of (seq 0 (dimension L)) t)) F) as (g & Hg & _ & _ & B); [apply in_map_iff; eauto|].
  exists G, g. split; [exact E|]. split; [exact Hg|]. apply (belongs_ext L (back (shift_of (seq 0 (dimension L)) t))); [|exact B].
  intros i _. apply same_sym, Et.
Qed.
Lemma tuples_meaning L axes : proper_lattice L -> (forall a, In a axes -> a < dimension L) -> NoDup (tuples L axes) /\
  forall t, In t (tuples L axes) <-> Forall2 (fun k a => if nth a (g_pbc (gl_geom L)) false then (0 <= k < nth a (g_extent (gl_geom L)) 0)%Z else k = 0%Z) t axes.
Proof.
  intros PL Ha. split; [apply tuples_nodup|]. intros t. rewrite tuples_in. split; intros H.
  - induction H as [|k a t axes Hk H IH]; constructor; [|apply IH; intros b Hb; apply Ha; now right]. apply (steps_in L PL) in Hk; [exact Hk|apply Ha; now left].
  - induction H as [|k a t axes Hk H IH]; constructor; [|apply IH; intros b Hb; apply Ha; now right]. apply (steps_in L PL); [apply Ha; now left|exact Hk].
Qed.
