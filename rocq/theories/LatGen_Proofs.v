From Coq Require Import List Arith Bool ZArith QArith Qabs Sorted Lia Lqa.
From Verif Require Import Base BaseFacts Group_Model Group_Proofs Lattice_Model Lattice_Spec Lattice_Proofs
  FloatCmp_Model FloatCmp_Spec FloatCmp_Proofs LatGen_Model LatGen_Spec.
Import ListNotations.
Open Scope Z_scope.

(** ** minima *)
Lemma qltb_lt a b : qltb a b = true <-> (a < b)%Q.
Proof.
  unfold qltb. rewrite negb_true_iff. split.
  - intros H. apply Qnot_le_lt. intros C. apply Qle_bool_iff in C. congruence.
  - intros H. apply not_true_iff_false. intros C. apply Qle_bool_iff in C. lra.
Qed.
Lemma qmin_spec a b : (qmin a b <= a /\ qmin a b <= b /\ (qmin a b = a \/ qmin a b = b))%Q.
Proof.
  unfold qmin. destruct (Qle_bool a b) eqn:E.
  - apply Qle_bool_iff in E. repeat split; auto; lra.
  - assert (b < a)%Q by (apply qltb_lt; unfold qltb; now rewrite E). repeat split; auto; lra.
Qed.
Lemma fold_qmin_le c l x : In x l -> (fold_right qmin c l <= x)%Q.
Proof.
  induction l as [|y l IH]; cbn [fold_right]; [intros []|]. destruct (qmin_spec y (fold_right qmin c l)) as (A & B & _).
  intros [->|H]; [exact A|]. apply IH in H. lra.
Qed.
Lemma fold_qmin_in c l : fold_right qmin c l = c \/ In (fold_right qmin c l) l.
Proof.
  induction l as [|y l IH]; cbn [fold_right]; [now left|]. destruct (qmin_spec y (fold_right qmin c l)) as (_ & _ & [->| ->]).
  - right. now left.
  - destruct IH; [now left|right; now right].
Qed.

Lemma qmax_le x a b : (x <= qmax a b)%Q <-> (x <= a)%Q \/ (x <= b)%Q.
Proof.
  unfold qmax. destruct (Qle_bool a b) eqn:E.
  - apply Qle_bool_iff in E. split; [auto|]. intros [H|H]; [apply Qle_trans with a; assumption|exact H].
  - split; [auto|]. intros [H|H]; [exact H|]. apply Qle_trans with b; [exact H|]. destruct (Qlt_le_dec b a) as [L|L]; [now apply Qlt_le_weak|]. apply Qle_bool_iff in L. congruence.
Qed.
Lemma within_cutoff g x : (0 < x)%Q -> (x <= cutoff g)%Q <-> within_basis g x.
Proof.
  intros P. unfold cutoff, within_basis.
  assert (X : forall l, (x <= fold_right qmax 0%Q l)%Q <-> exists y, In y l /\ (x <= y)%Q).
  { induction l as [|y l IH]; cbn [fold_right].
    - split; [intros H; lra|intros (? & [] & _)].
    - rewrite qmax_le, IH. split.
      + intros [H|(z & Hz & H)]; [exists y; split; [now left|exact H]|exists z; split; [now right|exact H]].
      + intros (z & [<-|Hz] & H); [now left|right; eauto]. }
  rewrite X. split.
  - intros (y & Hy & H). apply in_map_iff in Hy. destruct Hy as (i & <- & Hi%in_seq). exists i. split; [lia|exact H].
  - intros (i & Hi & H). eexists. split; [|exact H]. apply in_map_iff. exists i. split; [reflexivity|]. apply in_seq. lia.
Qed.

Lemma in_pairs' m i j : In (i, j) (pairs m) <-> (i < j < m)%nat.
Proof. apply (in_pairs [] []). reflexivity. Qed.

Lemma naive_in g sites i j :
  let d a b := sqdist g (site sites a) (site sites b) in
  In (i, j) (naive_edges g sites) <->
  (i < j < length sites)%nat /\ (0 < d i j)%Q /\ (d i j <= cutoff g)%Q /\
  forall a b, (a < b < length sites)%nat -> (0 < d a b -> d i j <= d a b)%Q.
Proof.
  intros d. unfold naive_edges.
  set (d2 := fun ij : nat * nat => sqdist g (site sites (fst ij)) (site sites (snd ij))).
  set (close := filter (fun ij => qltb 0 (d2 ij) && Qle_bool (d2 ij) (cutoff g)) (pairs (length sites))).
  assert (Cl : forall a b, In (a, b) close <-> (a < b < length sites)%nat /\ (0 < d a b)%Q /\ (d a b <= cutoff g)%Q).
  { intros a b. unfold close. rewrite filter_In, in_pairs', andb_true_iff, qltb_lt, Qle_bool_iff. unfold d2, d. cbn [fst snd]. tauto. }
  set (m := fold_right qmin (cutoff g) (map d2 close)).
  match goal with |- In _ ?l <-> _ => change l with (filter (fun ij => Qeq_bool (d2 ij) m) close) end.
  rewrite filter_In, Qeq_bool_iff. change (d2 (i, j)) with (d i j).
  assert (Mle : forall a b, In (a, b) close -> (m <= d a b)%Q).
  { intros a b H. apply fold_qmin_le. apply (in_map d2) in H. exact H. }
  split.
  - intros [H E]. pose proof (proj1 (Cl i j) H) as (A & B & C). split; [exact A|]. split; [exact B|]. split; [exact C|].
    intros a b Hab Hd. destruct (Qlt_le_dec (cutoff g) (d a b)) as [L|L].
    { apply Qle_trans with (cutoff g); [exact C|]. apply Qlt_le_weak. exact L. }
    assert (In (a, b) close) as H0 by (apply Cl; auto). apply Mle in H0. apply Qle_trans with m; [apply Qle_lteq; right; exact E|exact H0].
  - intros (A & B & C & D). assert (Hc : In (i, j) close) by (apply Cl; auto). split; [exact Hc|].
    apply Qle_antisym; [|apply Mle; exact Hc].
    destruct (fold_qmin_in (cutoff g) (map d2 close)) as [E|E].
    + unfold m. rewrite E. exact C.
    + fold m in E. apply in_map_iff in E. destruct E as ((a & b) & E & Hab). change (d2 (a, b)) with (d a b) in E. rewrite <- E.
      apply Cl in Hab. destruct Hab as (X & Y & _). apply D; auto.
Qed.

(** ** squared distances *)
Lemma qsum_ext {A} (f h : A -> Q) l : (forall x, In x l -> (f x == h x)%Q) -> (qsum (map f l) == qsum (map h l))%Q.
Proof.
  induction l as [|x l IH]; cbn [map qsum fold_right]; [reflexivity|]. intros H. fold (qsum (map f l)) (qsum (map h l)).
  rewrite (H x) by (now left). rewrite IH; [reflexivity|]. intros y Hy. apply H. now right.
Qed.
Lemma qsum_opp {A} (f : A -> Q) l : (qsum (map (fun x => - f x) l) == - qsum (map f l))%Q.
Proof.
  induction l as [|x l IH]; cbn [map qsum fold_right]; [reflexivity|]. fold (qsum (map f l)) (qsum (map (fun x => - f x)%Q l)).
  rewrite IH. ring.
Qed.
(** pointwise equal or opposite vectors have equal squares *)
Lemma inner_opp (r v w : list Q) : Forall2 (fun x y => (y == - x)%Q) v w ->
  (qsum (map (fun gy => fst gy * snd gy)%Q (combine r w)) == - qsum (map (fun gy => fst gy * snd gy)%Q (combine r v)))%Q.
Proof.
  intros H. revert r. induction H as [|x y v w E H IH]; intros [|a r]; try reflexivity.
  cbn [combine map fst snd]. change (qsum (?x :: ?l)) with (x + qsum l)%Q. rewrite IH, E. ring.
Qed.
Lemma quad_opp G v w : Forall2 (fun x y => (y == - x)%Q) v w -> (quad G w == quad G v)%Q.
Proof.
  intros H. unfold quad.
  assert (Q : forall v0 w0, Forall2 (fun x y => (y == - x)%Q) v0 w0 -> forall G,
    (qsum (map (fun rx => snd rx * qsum (map (fun gy => fst gy * snd gy)%Q (combine (fst rx) w)))%Q (combine G w0)) ==
     qsum (map (fun rx => snd rx * qsum (map (fun gy => fst gy * snd gy)%Q (combine (fst rx) v)))%Q (combine G v0)))%Q).
  { induction 1 as [|x y v0 w0 E H0 IH]; intros [|r G0]; try reflexivity.
    cbn [combine map fst snd]. change (qsum (?x :: ?l)) with (x + qsum l)%Q. rewrite IH, E, (inner_opp r v w H). ring. }
  apply Q. exact H.
Qed.
Lemma inner_ext (r v w : list Q) : Forall2 (fun x y => (y == x)%Q) v w ->
  (qsum (map (fun gy => fst gy * snd gy)%Q (combine r w)) == qsum (map (fun gy => fst gy * snd gy)%Q (combine r v)))%Q.
Proof.
  intros H. revert r. induction H as [|x y v w E H IH]; intros [|a r]; try reflexivity.
  cbn [combine map fst snd]. change (qsum (?x :: ?l)) with (x + qsum l)%Q. rewrite IH, E. ring.
Qed.
Lemma quad_ext G v w : Forall2 (fun x y => (y == x)%Q) v w -> (quad G w == quad G v)%Q.
Proof.
  intros H. unfold quad.
  assert (Q : forall v0 w0, Forall2 (fun x y => (y == x)%Q) v0 w0 -> forall G,
    (qsum (map (fun rx => snd rx * qsum (map (fun gy => fst gy * snd gy)%Q (combine (fst rx) w)))%Q (combine G w0)) ==
     qsum (map (fun rx => snd rx * qsum (map (fun gy => fst gy * snd gy)%Q (combine (fst rx) v)))%Q (combine G v0)))%Q).
  { induction 1 as [|x y v0 w0 E H0 IH]; intros [|r G0]; try reflexivity.
    cbn [combine map fst snd]. change (qsum (?x :: ?l)) with (x + qsum l)%Q. rewrite IH, E, (inner_ext r v w H). ring. }
  apply Q. exact H.
Qed.
Lemma vsub_opp a b : Forall2 (fun x y => (y == - x)%Q) (vsub a b) (vsub b a).
Proof.
  unfold vsub. revert b. induction a as [|x a IH]; intros [|y b]; cbn; constructor; [ring|apply IH].
Qed.
Lemma sqdist_sym g u v : (sqdist g u v == sqdist g v u)%Q.
Proof. unfold sqdist. apply quad_opp, vsub_opp. Qed.
Lemma sqdist_same g u : (sqdist g u u == 0)%Q.
Proof.
  unfold sqdist, quad, vsub. rewrite (qsum_ext _ (fun _ => 0)%Q).
  - induction (combine _ _); cbn [map qsum fold_right]; [reflexivity|]. fold (qsum (map (fun _ : list Q * Q => 0)%Q l)). rewrite IHl. ring.
  - intros [r x] H. cbn [fst snd]. apply in_combine_r in H. apply in_map_iff in H. destruct H as ((p & q) & <- & H). cbn [fst snd].
    assert (p = q); [|subst; ring]. clear - H. induction (frac g u); cbn in H; [tauto|]. destruct H as [[= <- <-]|H]; auto.
Qed.

(** ** boxes *)
Lemma ext_len g : length (ext g) = S (length (g_extent g)).
Proof. unfold ext. rewrite app_length. cbn. lia. Qed.
Lemma per_len g : length (per g) = S (length (g_pbc g)).
Proof. unfold per. rewrite app_length. cbn. lia. Qed.

Section Valid.
Variable g : geometry.
Hypothesis V : valid g.
Let Hlen : length (ext g) = length (per g).
Proof. rewrite ext_len, per_len. destruct V as [-> _]. reflexivity. Qed.
Let Hpos : Forall (fun e => 1 <= e) (ext g).
Proof.
  unfold ext. apply Forall_app. destruct V as (_ & E & N). split; [exact E|]. constructor; [|constructor].
  destruct (g_offsets g); [congruence|]. cbn [length]. lia.
Qed.

Lemma around_shell c : around g c <-> in_shell (ext g) (per g) c.
Proof.
  unfold around. revert Hlen. clear. generalize (ext g) (per g). intros es ps H.
  revert ps H c. induction es as [|e es IH]; intros [|p ps] H c; try discriminate.
  - cbn. split; intros A; [inversion A; exact I|]. destruct c; [constructor|destruct A].
  - cbn [combine in_shell]. injection H as H. destruct c as [|x c]; [split; intros A; [inversion A|destruct A]|]. split.
    + intros A. inversion A as [|? ? ? ? B C]; subst. cbn [fst snd] in B. split; [destruct p; lia|]. now apply IH.
    + intros [A B]. constructor; [cbn [fst snd]; destruct p; lia|]. now apply IH.
Qed.
Lemma folded_wrap c : folded g c = wrap (ext g) c.
Proof. reflexivity. Qed.
Lemma around_len c : around g c -> length c = length (ext g).
Proof. intros H. apply around_shell in H. eapply shell_len; eauto. Qed.
Lemma folded_box c : length c = length (ext g) -> of_box g (folded g c).
Proof. intros H. apply wrap_box; auto. Qed.
Lemma folded_id c : of_box g c -> folded g c = c.
Proof. intros H. apply wrap_id; auto. Qed.
Lemma box_around c : of_box g c -> around g c.
Proof. intros H. apply around_shell, box_shell; auto. Qed.

Notation orig := (all_sites (ext g) (per g)).
Notation W := (w (ext g) (per g)).
Notation INS := (ins (ext g) (per g)).

Lemma in_orig c : In c orig <-> around g c.
Proof. rewrite in_all_sites by exact Hlen. symmetry. apply around_shell. Qed.
Lemma at_orig c : around g c -> exists k, (k < length orig)%nat /\ site orig k = c.
Proof. intros H. apply site_pos. now apply in_orig. Qed.
Lemma orig_around k : (k < length orig)%nat -> around g (site orig k).
Proof. intros H. apply in_orig, nth_In, H. Qed.

Lemma naive_nearest a b : In (a, b) (naive_edges g orig) ->
  (a < length orig)%nat /\ (b < length orig)%nat /\ nearest_pair g (site orig a) (site orig b).
Proof.
  intros H. apply naive_in in H. destruct H as (A & B & C & D). split; [lia|]. split; [lia|].
  split; [apply orig_around; lia|]. split; [apply orig_around; lia|]. split; [exact B|]. split; [now apply within_cutoff|].
  intros u v Hu Hv Hd. destruct (at_orig u Hu) as (i & Hi & <-). destruct (at_orig v Hv) as (j & Hj & <-).
  destruct (Nat.lt_trichotomy i j) as [L|[->|L]].
  - apply D; auto.
  - rewrite sqdist_same in Hd. lra.
  - rewrite (sqdist_sym g (site orig i)) in *. apply D; auto.
Qed.
Lemma nearest_naive u v : nearest_pair g u v ->
  exists a b, (a < length orig)%nat /\ (b < length orig)%nat /\ site orig a = u /\ site orig b = v /\
    (In (a, b) (naive_edges g orig) \/ In (b, a) (naive_edges g orig)).
Proof.
  intros (A & B & C & D & F). destruct (at_orig u A) as (i & Hi & <-). destruct (at_orig v B) as (j & Hj & <-).
  exists i, j. do 4 (split; [auto|]). destruct (Nat.lt_trichotomy i j) as [L|[->|L]].
  - left. apply naive_in. split; [lia|]. split; [exact C|]. split; [now apply within_cutoff|].
    intros a b Hab Hd. apply F; auto; apply orig_around; lia.
  - rewrite sqdist_same in C. lra.
  - right. apply naive_in. rewrite (sqdist_sym g (site orig j) (site orig i)). split; [lia|]. split; [exact C|]. split; [now apply within_cutoff|].
    intros a b Hab Hd. rewrite (sqdist_sym g (site orig j) (site orig i)). apply F; auto; apply orig_around; lia.
Qed.

Lemma nearest_sym u v : nearest_pair g u v -> nearest_pair g v u.
Proof.
  intros (A & B & C & D & F). split; [auto|]. split; [auto|]. split; [rewrite (sqdist_sym g v u); auto|].
  split; [destruct D as (i & Hi & D); exists i; split; [exact Hi|rewrite (sqdist_sym g v u); exact D]|].
  intros u' v' Hu Hv Hd. rewrite (sqdist_sym g v u). apply F; auto.
Qed.
Lemma adjacent_sym c d : adjacent g c d -> adjacent g d c.
Proof. intros (u & v & (N & B) & E & F). exists v, u. split; [split; [now apply nearest_sym|tauto]|auto]. Qed.

Lemma gen_main :
  ((exists c d, adjacent g c d) ->
   exists L, gen_lattice g = Ok L /\ gl_geom L = g /\ StronglySorted lex (gl_sites L) /\
    (forall c, In c (gl_sites L) <-> exists d, adjacent g c d) /\ NoDup (gl_edges L) /\
    (forall i j, In (i, j) (gl_edges L) <-> (i < j < length (gl_sites L))%nat /\
       adjacent g (nth i (gl_sites L) []) (nth j (gl_sites L) []))) /\
  ((exists c d, adjacent g c d) \/ gen_lattice g = Err ValueError).
Proof.
  destruct (edge_loop_ok (ext g) (per g) Hlen Hpos (naive_edges g orig) orig [] []) as (cur & E & X & C & S & K).
  { split; auto. }
  { intros x y []. }
  { intros a b []. }
  { intros a b H. apply naive_nearest in H. tauto. }
  cbn [app] in S, K.
  assert (Hin : forall x y, In (x, y) E -> (x < length orig)%nat /\ (y < length orig)%nat /\
     INS x = true /\ INS y = true /\ adjacent g (site orig x) (site orig y)).
  { intros x y H. destruct (S x y H) as (a & b & N & I & -> & ->). apply naive_nearest in N. destruct N as (Ha & Hb & N).
    destruct (w_ok _ _ Hlen Hpos a Ha) as (_ & A1 & A2). destruct (w_ok _ _ Hlen Hpos b Hb) as (_ & B1 & B2).
    split; [exact A1|]. split; [exact B1|]. split; [now apply w_ins|]. split; [now apply w_ins|].
    rewrite A2, B2. exists (site orig a), (site orig b). split; [split; [exact N|]|auto].
    rewrite (ins_box _ _ Hlen a Ha), (ins_box _ _ Hlen b Hb) in I. exact I. }
  assert (Adj : forall c d, adjacent g c d -> exists x y, (In (x, y) E \/ In (y, x) E) /\ site orig x = c /\ site orig y = d).
  { intros c d (u & v & (N & B) & Eu & Ev). destruct (nearest_naive u v N) as (a & b & Ha & Hb & Ea & Eb & H).
    assert (I : INS a = true \/ INS b = true).
    { rewrite (ins_box _ _ Hlen a Ha), (ins_box _ _ Hlen b Hb), Ea, Eb. exact B. }
    exists (W a), (W b). destruct (w_ok _ _ Hlen Hpos a Ha) as (_ & _ & A2). destruct (w_ok _ _ Hlen Hpos b Hb) as (_ & _ & B2).
    rewrite A2, B2, Ea, Eb. split; [|auto]. destruct H as [H|H]; destruct (K _ _ H); tauto. }
  set (old := used_nodes (length orig) E).
  assert (Oin : forall k, In k old <-> exists y, In (k, y) E \/ In (y, k) E).
  { intros k. unfold old, used_nodes. rewrite filter_In, existsb_exists. split.
    - intros [_ ((x & y) & H & Q)]. cbn [fst snd] in Q. apply orb_true_iff in Q. rewrite !Nat.eqb_eq in Q.
      destruct Q as [->| ->]; [exists y|exists x]; auto.
    - intros [y [H|H]]; destruct (Hin _ _ H) as (A & B & _).
      + split; [apply in_seq; lia|]. exists (k, y). split; [exact H|]. cbn. now rewrite Nat.eqb_refl.
      + split; [apply in_seq; lia|]. exists (y, k). split; [exact H|]. cbn. now rewrite Nat.eqb_refl, orb_true_r. }
  assert (Olt : forall k, In k old -> (k < length orig)%nat /\ INS k = true).
  { intros k H. apply Oin in H. destruct H as [y [H|H]]; destruct (Hin _ _ H) as (A & B & F & G & _); auto. }
  assert (Gl : gen_lattice g = if Nat.eqb (length old) 0 then Err ValueError else
    Ok (GLat g (map (site cur) old) (simplify (map (fun e => (find_pos (fst e) old, find_pos (snd e) old)) E)))).
  { unfold gen_lattice. rewrite X. reflexivity. }
  split.
  2:{ rewrite Gl. clear Gl. destruct old as [|k l] eqn:Eo; [now right|left].
      assert (In k old) by (rewrite Eo; now left). rewrite <- Eo in Oin. apply Oin in H.
      destruct H as [y [H|H]]; destruct (Hin _ _ H) as (_ & _ & _ & _ & A); eauto. }
  intros (c0 & d0 & Hcd).
  assert (Onodup : NoDup old) by (unfold old, used_nodes; apply NoDup_filter, seq_NoDup).
  assert (Osort : StronglySorted lt old) by (unfold old, used_nodes; apply StronglySorted_filter, seq_sorted).
  assert (Cur : map (site cur) old = map (site orig) old).
  { apply map_ext_in. intros k Hk. apply Olt in Hk. destruct Hk as [Hk I].
    destruct C as [_ C]. destruct (C k Hk) as [->| ->]; auto. apply wrap_id. apply ins_box in I; auto. }
  rewrite Gl, Cur. set (sites := map (site orig) old).
  assert (Hne : Nat.eqb (length old) 0 = false).
  { apply Nat.eqb_neq. intros Z. destruct (Adj c0 d0 Hcd) as (x & y & H & _).
    assert (In x old) by (apply Oin; exists y; exact H). destruct old; [destruct H0|discriminate]. }
  rewrite Hne. eexists. split; [reflexivity|]. cbn [gl_geom gl_sites gl_edges]. split; [reflexivity|].
  assert (Ssort : StronglySorted lex sites).
  { unfold sites. assert (G : forall l, StronglySorted lt l ->
      (forall k, In k l -> (k < length orig)%nat) -> StronglySorted lex (map (site orig) l)).
    { induction 1 as [|a l Sl IH F]; intros Hl; cbn; constructor.
      - apply IH. intros; apply Hl; now right.
      - rewrite Forall_forall in *. intros c Hc. apply in_map_iff in Hc.
        destruct Hc as [b [<- Hb]]. unfold site.
        apply (StronglySorted_nth lex); [apply all_sites_sorted|].
        split; [auto|apply Hl; now right]. }
    apply G; auto. intros k Hk. now apply Olt in Hk. }
  split; [exact Ssort|].
  assert (Lsites : length sites = length old) by apply map_length.
  assert (New : forall k, In k old -> (find_pos k old < length sites)%nat /\
     nth (find_pos k old) sites [] = site orig k).
  { intros k Hk. destruct (find_pos_nth k old Hk) as [A B]. rewrite Lsites. split; auto.
    unfold sites. rewrite (nth_indep _ [] (site orig 0)) by now rewrite map_length.
    rewrite (map_nth (site orig)). now rewrite A. }
  assert (Snodup : NoDup sites) by now apply lex_nodup.
  split.
  { intros c. unfold sites. rewrite in_map_iff. split.
    - intros (k & <- & Hk). apply Oin in Hk. destruct Hk as [y [H|H]]; destruct (Hin _ _ H) as (_ & _ & _ & _ & A).
      + eexists. exact A.
      + eexists. apply adjacent_sym. exact A.
    - intros (d & H). destruct (Adj c d H) as (x & y & Q & <- & _). exists x. split; [reflexivity|]. apply Oin. now exists y. }
  split; [apply simplify_nodup|].
  intros i j. rewrite (simplify_in [] []) by reflexivity. split.
  - intros [Lij H].
    assert (G : forall i j, In (i, j) (map (fun e => (find_pos (fst e) old, find_pos (snd e) old)) E) ->
       (i < length sites)%nat /\ (j < length sites)%nat /\ adjacent g (nth i sites []) (nth j sites [])).
    { clear i j Lij H. intros i j H. apply in_map_iff in H. destruct H as ((x & y) & [= <- <-] & H).
      cbn [fst snd]. destruct (Hin x y H) as (_ & _ & _ & _ & A).
      destruct (New x) as [A1 A2]; [apply Oin; exists y; auto|]. destruct (New y) as [B1 B2]; [apply Oin; exists x; auto|].
      rewrite A2, B2. auto. }
    destruct H as [H|H]; destruct (G _ _ H) as (A & B & D).
    + split; [lia|exact D].
    + split; [lia|]. now apply adjacent_sym.
  - intros [Lij Nij]. split; [lia|].
    destruct (Adj _ _ Nij) as (x & y & Q & Ex & Ey).
    assert (Ox : In x old) by (apply Oin; exists y; tauto). assert (Oy : In y old) by (apply Oin; exists x; tauto).
    destruct (New x Ox) as [A1 A2]. destruct (New y Oy) as [B1 B2].
    assert (i = find_pos x old). { apply (proj1 (NoDup_nth sites []) Snodup); [lia|auto|congruence]. }
    assert (j = find_pos y old). { apply (proj1 (NoDup_nth sites []) Snodup); [lia|auto|congruence]. }
    subst i j. destruct Q as [Q|Q]; [left|right];
      apply (in_map (fun e => (find_pos (fst e) old, find_pos (snd e) old))) in Q; exact Q.
Qed.
End Valid.
