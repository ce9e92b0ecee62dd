(** Proofs behind C31: sites and edges. *)
From Coq Require Import List Arith Bool ZArith Sorted Lia.
From Verif Require Import Base BaseFacts Group_Model Group_Spec Group_Proofs Lattice_Model Lattice_Spec.
Import ListNotations.
Open Scope Z_scope.

(** ** ranges and grids *)
Lemma in_range lo hi x : In x (range lo hi) <-> lo <= x < hi.
Proof.
  unfold range. rewrite in_map_iff. split.
  - intros [k [<- Hk]]. apply in_zrange in Hk. lia.
  - intros H. exists (x - lo). rewrite in_zrange. lia.
Qed.

Lemma range_sorted lo hi : StronglySorted Z.lt (range lo hi).
Proof.
  unfold range. pose proof (zrange_sorted (hi - lo)) as S.
  induction S as [|x l S IH F]; cbn; constructor; auto.
  rewrite Forall_forall in *. intros y Hy. apply in_map_iff in Hy.
  destruct Hy as [z [<- Hz]]. specialize (F z Hz). lia.
Qed.

Lemma in_mgrid rs c : In c (mgrid rs) <-> Forall2 (fun x r => In x r) c rs.
Proof.
  revert c; induction rs as [|r rs IH]; intros c; cbn.
  - split; [intros [<-|[]]; constructor|]. intros H; inversion H; auto.
  - rewrite in_flat_map. split.
    + intros [x [Hx H]]. apply in_map_iff in H. destruct H as [c' [<- H]].
      constructor; auto. now apply IH.
    + intros H; inversion H as [|x ? c' ? Hx H']; subst. exists x. split; auto.
      apply in_map. now apply IH.
Qed.

Lemma lex_sorted_app l1 l2 :
  StronglySorted lex l1 -> StronglySorted lex l2 ->
  (forall a b, In a l1 -> In b l2 -> lex a b) -> StronglySorted lex (l1 ++ l2).
Proof.
  intros S1 S2 H. induction S1 as [|x l S IH F]; cbn; auto. constructor.
  - apply IH. intros; apply H; auto. now right.
  - rewrite Forall_forall in *. intros y Hy. apply in_app_iff in Hy.
    destruct Hy; [auto|]. apply H; auto. now left.
Qed.

Lemma mgrid_sorted rs : Forall (StronglySorted Z.lt) rs -> StronglySorted lex (mgrid rs).
Proof.
  intros H; induction H as [|r rs Hr H IH]; cbn; [repeat constructor|].
  induction Hr as [|x r S IHr F]; cbn; [constructor|].
  apply lex_sorted_app; auto.
  - clear - IH. induction IH as [|c l S IH F]; cbn; constructor; auto.
    rewrite Forall_forall in *. intros y Hy. apply in_map_iff in Hy.
    destruct Hy as [c' [<- Hc]]. cbn. right. auto.
  - intros a b Ha Hb. apply in_map_iff in Ha. destruct Ha as [a' [<- _]].
    apply in_flat_map in Hb. destruct Hb as [y [Hy Hb]].
    apply in_map_iff in Hb. destruct Hb as [b' [<- _]]. rewrite Forall_forall in F.
    cbn. left. auto.
Qed.

Lemma lex_irrefl c : ~ lex c c.
Proof. induction c; cbn; [auto|]. intros [H|[_ H]]; [lia|auto]. Qed.

Lemma lex_nodup l : StronglySorted lex l -> NoDup l.
Proof.
  induction 1 as [|x l S IH F]; constructor; auto. intros H.
  rewrite Forall_forall in F. apply (lex_irrefl x); auto.
Qed.

Lemma wrap_id' es c : in_box es c -> wrap es c = c.
Proof.
  unfold in_box, wrap. induction 1; cbn; auto. f_equal; auto. now apply Z.mod_small.
Qed.

Lemma coord_pos_spec c l :
  match coord_pos c l with
  | Some k => (k < length l)%nat /\ nth k l [] = c
  | None => ~ In c l
  end.
Proof.
  induction l as [|x l IH]; cbn; [auto|].
  destruct (zlist_eqb x c) eqn:E.
  - apply zlist_eqb_eq in E. split; [lia|auto].
  - destruct (coord_pos c l) as [k|]; cbn.
    + destruct IH; split; [lia|auto].
    + intros [->|H]; [|auto]. rewrite (proj2 (zlist_eqb_eq c c) eq_refl) in E. discriminate.
Qed.

Lemma coord_pos_nth l k : NoDup l -> (k < length l)%nat -> coord_pos (nth k l []) l = Some k.
Proof.
  intros N Hk. pose proof (coord_pos_spec (nth k l []) l) as S.
  destruct (coord_pos (nth k l []) l) as [j|].
  - destruct S as [A B]. f_equal. apply (proj1 (NoDup_nth l []) N); auto.
  - destruct S. now apply nth_In.
Qed.

Section Grid.
Variables (extent : list Z) (pbc : list bool).
Hypothesis Hlen : length extent = length pbc.
Hypothesis Hpos : Forall (fun e => 1 <= e) extent.

Notation orig := (all_sites extent pbc).

(** Coordinates of the enlarged grid. *)
Fixpoint in_shell (es : list Z) (ps : list bool) (c : coord) : Prop :=
  match es, ps, c with
  | [], [], [] => True
  | e :: es', p :: ps', x :: c' =>
      (if p then -1 <= x < e + 1 else 0 <= x < e) /\ in_shell es' ps' c'
  | _, _, _ => False
  end.

Lemma in_all_sites c : In c orig <-> in_shell extent pbc c.
Proof.
  unfold all_sites. rewrite in_mgrid. clear Hpos.
  revert pbc Hlen c; induction extent as [|e es IH]; intros [|p ps] L c; try discriminate.
  - cbn. destruct c; split; intros H; try easy; inversion H.
  - cbn [shell combine map fst snd in_shell]. injection L as L.
    destruct c as [|x c]; [split; intros H; [inversion H|easy]|].
    specialize (IH ps L c). fold (shell es ps). split.
    + intros H; inversion H as [|? ? ? ? A B]; subst. split; [|now apply IH].
      destruct p; now rewrite in_range in A.
    + intros [A B]. constructor; [|now apply IH]. destruct p; now rewrite in_range.
Qed.

Lemma all_sites_sorted : StronglySorted lex orig.
Proof.
  apply mgrid_sorted. unfold shell. rewrite Forall_forall. intros r Hr.
  apply in_map_iff in Hr. destruct Hr as [[e p] [<- _]]. cbn.
  destruct p; apply range_sorted.
Qed.

Lemma all_sites_nodup : NoDup orig.
Proof. apply lex_nodup, all_sites_sorted. Qed.

Lemma inside_iff c : length c = length extent -> (inside extent c = true <-> in_box extent c).
Proof.
  unfold inside, in_box. clear Hlen Hpos. revert extent.
  induction c as [|x c IH]; intros [|e es] L; try discriminate.
  - cbn. split; auto.
  - cbn [combine forallb fst snd]. injection L as L. rewrite andb_true_iff, IH by auto.
    rewrite andb_true_iff, Z.leb_le, Z.leb_le. split.
    + intros [A B]; constructor; auto; lia.
    + intros H; inversion H; subst. split; auto; lia.
Qed.

Lemma box_shell c : in_box extent c -> in_shell extent pbc c.
Proof.
  unfold in_box. clear Hpos. revert pbc Hlen c.
  induction extent as [|e es IH]; intros [|p ps] L c H; try discriminate; inversion H; subst; cbn; auto.
  split; [destruct p; lia|]. apply IH; auto.
Qed.

Lemma shell_len c : in_shell extent pbc c -> length c = length extent.
Proof.
  clear Hpos. revert pbc Hlen c.
  induction extent as [|e es IH]; intros [|p ps] L [|x c] H; try discriminate; cbn in *; auto; try tauto.
  f_equal. apply (IH ps); [lia|tauto].
Qed.

Lemma wrap_box c : length c = length extent -> in_box extent (wrap extent c).
Proof.
  unfold in_box, wrap. clear Hlen. revert Hpos c.
  induction extent as [|e es IH]; intros P [|x c] L; try discriminate; cbn; constructor.
  - inversion P; subst. apply Z.mod_pos_bound. lia.
  - inversion P; subst. apply IH; auto.
Qed.

Lemma wrap_id c : in_box extent c -> wrap extent c = c.
Proof. apply wrap_id'. Qed.

Lemma wrap_wrap c : length c = length extent -> wrap extent (wrap extent c) = wrap extent c.
Proof. intros H. now apply wrap_id, wrap_box. Qed.

Lemma wrap_len c : length c = length extent -> length (wrap extent c) = length extent.
Proof. intros H. unfold wrap. rewrite map_length, combine_length. lia. Qed.

(** ** unit steps and distances *)
Inductive unit_step : coord -> coord -> Prop :=
| us_here x c : unit_step (x :: c) (x + 1 :: c)
| us_there x c c' : unit_step c c' -> unit_step (x :: c) (x :: c').

Lemma dist2_cons x u y v : dist2 (x :: u) (y :: v) = (x - y) * (x - y) + dist2 u v.
Proof. reflexivity. Qed.

Lemma dist2_nonneg u v : 0 <= dist2 u v.
Proof.
  revert v; induction u as [|x u IH]; intros [|y v]; try (cbn; lia).
  rewrite dist2_cons. specialize (IH v). pose proof (Z.square_nonneg (x - y)). lia.
Qed.

Lemma dist2_0 u v : length u = length v -> dist2 u v = 0 -> u = v.
Proof.
  revert v; induction u as [|x u IH]; intros [|y v] L H; try discriminate; auto.
  rewrite dist2_cons in H. pose proof (dist2_nonneg u v) as N.
  pose proof (Z.square_nonneg (x - y)) as N'.
  assert ((x - y) * (x - y) = 0) by lia. assert (x = y) by nia. subst. f_equal.
  apply IH; [cbn in L; lia|lia].
Qed.

Lemma dist2_same u : dist2 u u = 0.
Proof.
  induction u as [|a u IH]; [reflexivity|].
  change (dist2 (a :: u) (a :: u)) with ((a - a) * (a - a) + dist2 u u).
  rewrite IH, Z.sub_diag. reflexivity.
Qed.

Lemma dist2_1 u v : length u = length v ->
  (dist2 u v = 1 <-> unit_step u v \/ unit_step v u).
Proof.
  revert v; induction u as [|x u IH]; intros [|y v] L; try discriminate.
  - cbn. split; [lia|]. intros [H|H]; inversion H.
  - injection L as L. specialize (IH v L).
    change (dist2 (x :: u) (y :: v)) with ((x - y) * (x - y) + dist2 u v).
    pose proof (dist2_nonneg u v). pose proof (Z.square_nonneg (x - y)). split.
    + intros E. destruct (Z.eq_dec (dist2 u v) 0) as [Z0|Z0].
      * apply dist2_0 in Z0; auto. subst v. rewrite dist2_same in E.
        assert (y = x + 1 \/ x = y + 1) as [->| ->] by nia;
          [left|right]; constructor.
      * assert ((x - y) * (x - y) = 0) by lia. assert (x = y) by nia; subst y.
        assert (E' : dist2 u v = 1) by lia. apply IH in E'.
        destruct E'; [left|right]; now constructor.
    + intros [S|S]; inversion S; subst.
      * rewrite dist2_same. nia.
      * assert (dist2 u v = 1) by (apply IH; auto). nia.
      * rewrite dist2_same. nia.
      * assert (dist2 u v = 1) by (apply IH; auto). nia.
Qed.

Lemma in_pairs m i j : In (i, j) (pairs m) <-> (i < j < m)%nat.
Proof.
  unfold pairs. rewrite in_flat_map. split.
  - intros [k [Hk H]]. apply in_map_iff in H. destruct H as [l [[= <- <-] Hl]].
    apply in_seq in Hk, Hl. lia.
  - intros H. exists i. split; [apply in_seq; lia|]. apply in_map, in_seq. lia.
Qed.

Lemma get_edges_in sites i j :
  In (i, j) (get_edges sites) <->
  (i < j < length sites)%nat /\ dist2 (site sites i) (site sites j) = 1.
Proof.
  unfold get_edges. rewrite filter_In, filter_In, in_pairs. cbn [fst snd].
  set (d := fun ij : nat * nat => dist2 (site sites (fst ij)) (site sites (snd ij))).
  assert (M : forall l, Forall (fun ij => d ij = 1) l -> fold_right Z.min 1 (map d l) = 1).
  { induction 1 as [|x l Hx H IH]; cbn; auto. rewrite IH, Hx. reflexivity. }
  rewrite M.
  2:{ rewrite Forall_forall. intros x Hx. apply filter_In in Hx. destruct Hx as [_ Hx].
      apply andb_true_iff in Hx. rewrite Z.ltb_lt, Z.leb_le in Hx. unfold d in *. lia. }
  rewrite andb_true_iff, Z.ltb_lt, Z.leb_le, Z.eqb_eq. intuition lia.
Qed.

(** ** the dictionary of coordinates *)
(** The node of the wrapped coordinates of node k. *)
Definition w (k : nat) : nat :=
  match coord_pos (wrap extent (site orig k)) orig with Some j => j | None => O end.

Lemma site_len k : (k < length orig)%nat -> length (site orig k) = length extent.
Proof. intros H. apply shell_len, in_all_sites, nth_In, H. Qed.

Lemma w_ok k : (k < length orig)%nat ->
  coord_pos (wrap extent (site orig k)) orig = Some (w k) /\ (w k < length orig)%nat
  /\ site orig (w k) = wrap extent (site orig k).
Proof.
  intros H. unfold w. pose proof (coord_pos_spec (wrap extent (site orig k)) orig) as S.
  destruct (coord_pos (wrap extent (site orig k)) orig) as [j|].
  - unfold site at 2. tauto.
  - destruct S. apply in_all_sites, box_shell, wrap_box, site_len, H.
Qed.

Definition ins (k : nat) : bool := inside extent (site orig k).

Lemma ins_box k : (k < length orig)%nat -> (ins k = true <-> in_box extent (site orig k)).
Proof. intros H. apply inside_iff, site_len, H. Qed.

Lemma w_inside k : (k < length orig)%nat -> ins k = true -> w k = k.
Proof.
  intros H I. apply ins_box in I; auto. unfold w. rewrite wrap_id by auto.
  unfold site. now rewrite coord_pos_nth by (auto; apply all_sites_nodup).
Qed.

Lemma w_ins k : (k < length orig)%nat -> ins (w k) = true.
Proof.
  intros H. destruct (w_ok k H) as [_ [A B]]. apply ins_box; auto. rewrite B.
  apply wrap_box, site_len, H.
Qed.

(** ** the edge loop *)
Lemma edge_in_iff e s : edge_in e s = true <-> In e s.
Proof.
  unfold edge_in. rewrite existsb_exists. split.
  - intros [f [Hf E]]. apply andb_true_iff in E. rewrite !Nat.eqb_eq in E.
    destruct e, f; cbn in *. destruct E; subst; auto.
  - intros H. exists e. split; auto. now rewrite !Nat.eqb_refl.
Qed.

Lemma add_edge_in e s f : In f (add_edge e s) <-> f = e \/ In f s.
Proof.
  unfold add_edge. destruct (edge_in e s) eqn:E.
  - apply edge_in_iff in E. split; [auto|]. intros [->|H]; auto.
  - rewrite in_app_iff. cbn. intuition.
Qed.

Definition cur_ok (cur : list coord) : Prop :=
  length cur = length orig /\
  forall k, (k < length orig)%nat ->
    site cur k = site orig k \/ site cur k = wrap extent (site orig k).

Lemma cur_upd cur k : cur_ok cur -> (k < length orig)%nat ->
  wrap extent (site cur k) = wrap extent (site orig k) /\
  cur_ok (upd cur k (wrap extent (site cur k))).
Proof.
  intros [L C] Hk.
  assert (E : wrap extent (site cur k) = wrap extent (site orig k)).
  { destruct (C k Hk) as [-> | ->]; auto. apply wrap_wrap, site_len, Hk. }
  split; [exact E|]. split; [now rewrite upd_length|].
  intros j Hj. destruct (Nat.eq_dec k j) as [->|N].
  - right. unfold site at 1. rewrite nth_upd_same by lia. exact E.
  - replace (site (upd cur k (wrap extent (site cur k))) j) with (site cur j)
      by (unfold site at 2; rewrite nth_upd_other by auto; reflexivity).
    apply C, Hj.
Qed.

Definition sound (P E : list (nat * nat)) : Prop :=
  forall x y, In (x, y) E -> exists a b, In (a, b) P /\ (ins a = true \/ ins b = true)
    /\ x = w a /\ y = w b.
Definition complete (P E : list (nat * nat)) : Prop :=
  forall a b, In (a, b) P -> ins a = true \/ ins b = true ->
    In (w a, w b) E \/ In (w b, w a) E.

Lemma edge_step_ok cur E P a b :
  cur_ok cur -> sound P E -> complete P E -> (a < length orig)%nat -> (b < length orig)%nat ->
  exists cur' E', edge_step extent orig (cur, E) (a, b) = Ok (cur', E')
    /\ cur_ok cur' /\ sound (P ++ [(a, b)]) E' /\ complete (P ++ [(a, b)]) E'.
Proof.
  intros C S K Ha Hb. unfold edge_step. fold (ins a) (ins b).
  assert (S' : sound (P ++ [(a, b)]) E).
  { intros x y H. destruct (S x y H) as [c [d [X Y]]]. exists c, d.
    split; [apply in_app_iff; auto|auto]. }
  assert (K' : forall E', (forall e, In e E -> In e E') ->
    (ins a = true \/ ins b = true -> In (w a, w b) E' \/ In (w b, w a) E') ->
    complete (P ++ [(a, b)]) E').
  { intros E' HE HN c d H I. apply in_app_iff in H. destruct H as [H|[[= <- <-]|[]]].
    - destruct (K c d H I); auto.
    - auto. }
  assert (SA : (ins a = true \/ ins b = true) -> sound (P ++ [(a, b)]) (add_edge (w a, w b) E)).
  { intros I x y H. apply add_edge_in in H. destruct H as [[= -> ->]|H]; [|now apply S'].
    exists a, b. split; [apply in_app_iff; right; now left|auto]. }
  destruct (ins a && ins b) eqn:IB.
  - apply andb_true_iff in IB. destruct IB as [I1 I2].
    exists cur, (add_edge (a, b) E). split; [reflexivity|]. split; [exact C|].
    assert (EQ : (a, b) = (w a, w b)) by (now rewrite (w_inside a), (w_inside b)).
    assert (EQ' : add_edge (a, b) E = add_edge (w a, w b) E) by now rewrite <- EQ.
    rewrite EQ'. split; [auto|].
    apply K'.
    + intros; apply add_edge_in; auto.
    + intros _. left. apply add_edge_in; auto.
  - destruct (ins a || ins b) eqn:IO.
    + apply orb_true_iff in IO.
      destruct (cur_upd cur a C Ha) as [E1 C1].
      destruct (cur_upd _ b C1 Hb) as [E2 C2].
      rewrite E2, E1. rewrite E2, E1 in C2.
      destruct (w_ok a Ha) as [-> _]. destruct (w_ok b Hb) as [-> _].
      destruct (edge_in (w a, w b) E) eqn:Q1; cbn [negb andb].
      * eexists; eexists; split; [reflexivity|]. split; [exact C2|]. split; [exact S'|].
        apply K'; auto. intros _. left. now apply edge_in_iff.
      * destruct (edge_in (w b, w a) E) eqn:Q2; cbn [negb].
        -- eexists; eexists; split; [reflexivity|]. split; [exact C2|]. split; [exact S'|].
           apply K'; auto. intros _. right. now apply edge_in_iff.
        -- eexists; eexists; split; [reflexivity|]. split; [exact C2|]. split; [auto|].
           apply K'; [intros; apply add_edge_in; auto|]. intros _. left. apply add_edge_in; auto.
    + exists cur, E. split; [reflexivity|]. split; [exact C|]. split; [exact S'|].
      apply K'; auto. apply orb_false_iff in IO. destruct IO as [-> ->]. intros [|]; discriminate.
Qed.

Lemma edge_loop_ok es : forall cur E P,
  cur_ok cur -> sound P E -> complete P E ->
  (forall a b, In (a, b) es -> (a < length orig)%nat /\ (b < length orig)%nat) ->
  exists cur' E', edge_loop extent orig (cur, E) es = Ok (cur', E')
    /\ cur_ok cur' /\ sound (P ++ es) E' /\ complete (P ++ es) E'.
Proof.
  induction es as [|[a b] es IH]; intros cur E P C S K H.
  - exists cur, E. cbn. rewrite app_nil_r. auto.
  - destruct (H a b) as [Ha Hb]; [now left|].
    destruct (edge_step_ok cur E P a b C S K Ha Hb) as [cur1 [E1 [X [C1 [S1 K1]]]]].
    cbn [edge_loop]. rewrite X. cbn [bind].
    destruct (IH cur1 E1 (P ++ [(a, b)]) C1 S1 K1) as [cur2 [E2 Y]].
    { intros; apply H; now right. }
    exists cur2, E2. rewrite <- app_assoc in Y. exact Y.
Qed.

(** ** geometry *)
Lemma unit_wrap es : forall ps u v, Forall (fun e => 1 <= e) es ->
  in_shell es ps u -> in_shell es ps v -> in_box es u \/ in_box es v ->
  unit_step u v -> step es ps (wrap es u) (wrap es v).
Proof.
  unfold in_box. induction es as [|e es IH]; intros [|p ps] u v P Su Sv B U;
    inversion U; subst; cbn in Su, Sv; try tauto.
  - cbn. inversion P; subst. apply step_here.
    destruct B as [B|B]; inversion B; subst.
    + rewrite (Z.mod_small x e) by lia.
      destruct (Z.eq_dec (x + 1) e) as [E|E].
      * right. destruct p; [|lia]. split; auto. split; [lia|]. rewrite E. apply Z.mod_same. lia.
      * left. apply Z.mod_small. lia.
    + rewrite (Z.mod_small (x + 1) e) by lia.
      destruct (Z.eq_dec x (-1)) as [->|E].
      * right. destruct p; [|lia]. split; auto. split; [|lia].
        symmetry. apply (Z.mod_unique_pos _ _ (-1)); lia.
      * left. rewrite Z.mod_small by lia. reflexivity.
  - cbn. inversion P; subst. apply step_there. apply IH; try tauto.
    destruct B as [B|B]; inversion B; subst; auto.
Qed.

Lemma step_unit es : forall ps u v, length es = length ps ->
  in_box es u -> in_box es v -> step es ps u v ->
  exists v', in_shell es ps v' /\ unit_step u v' /\ wrap es v' = v.
Proof.
  unfold in_box. induction es as [|e es IH]; intros [|p ps] u v L Bu Bv S;
    inversion S as [? ? ? ? ? ? ? H6|? ? ? ? ? ? ? H6]; subst;
    inversion Bu as [|? ? ? ? X1 X2]; inversion Bv as [|? ? ? ? Y1 Y2]; subst.
  - exists (x + 1 :: c). split; [|split].
    + cbn. split; [|]. 
      * destruct H6 as [->|[-> [-> ->]]]; [destruct p; lia|lia].
      * clear - X2 L. injection L as L. revert ps L.
        induction X2; intros [|p' ps] L; try discriminate; cbn; auto.
        split; [destruct p'; lia|]. apply IHX2. cbn in L; lia.
    + constructor.
    + cbn. f_equal; [|now apply wrap_id'].
      destruct H6 as [->|[-> [-> ->]]]; [now apply Z.mod_small|].
      replace (e - 1 + 1) with e by lia. apply Z.mod_same. lia.
  - injection L as L. destruct (IH ps c c' L X2 Y2 H6) as [v' [A [B C]]].
    exists (x :: v'). split; [|split].
    + cbn. split; [destruct p; lia|auto].
    + now constructor.
    + cbn. f_equal; [now apply Z.mod_small|exact C].
Qed.

Lemma some_unit es : forall ps u, length es = length ps ->
  in_box es u -> Exists (fun ep => snd ep = true \/ 1 < fst ep) (combine es ps) ->
  exists v, in_shell es ps v /\ (unit_step u v \/ unit_step v u).
Proof.
  unfold in_box. induction es as [|e es IH]; intros [|p ps] u L Bu X; cbn in X;
    inversion Bu as [|x ? c ? Hx Hc]; subst; try (inversion X; fail).
  assert (Sc : in_shell es ps c).
  { clear - Hc L. injection L as L. revert ps L.
    induction Hc; intros [|p' ps] L; try discriminate; cbn; auto.
    split; [destruct p'; lia|]. apply IHHc. cbn in L; lia. }
  destruct (Z.eq_dec x (e - 1)) as [E|E].
  - inversion X as [? ? [Hp|He]|? ? X']; subst; cbn in *.
    + subst p. exists (e - 1 + 1 :: c). split; [cbn; split; [lia|exact Sc]|]. left; constructor.
    + exists (e - 2 :: c). split; [cbn; split; [destruct p; lia|exact Sc]|]. right.
      replace (e - 1) with (e - 2 + 1) by lia. constructor.
    + destruct (IH ps c ltac:(lia) Hc X') as [v [A B]].
      exists (e - 1 :: v). split; [cbn; split; [destruct p; lia|exact A]|].
      destruct B; [left|right]; now constructor.
  - exists (x + 1 :: c). split; [cbn; split; [destruct p; lia|exact Sc]|]. left; constructor.
Qed.

(** ** simplify *)
Lemma simplify_in es i j :
  In (i, j) (simplify es) <-> (i < j)%nat /\ (In (i, j) es \/ In (j, i) es).
Proof.
  unfold simplify.
  assert (G : forall acc, In (i, j) (fold_left (fun acc e =>
      if Nat.eqb (fst e) (snd e) then acc else add_edge (ordered e) acc) es acc) <->
      In (i, j) acc \/ ((i < j)%nat /\ (In (i, j) es \/ In (j, i) es))).
  { induction es as [|[a b] es IH]; intros acc; cbn [fold_left].
    - cbn. intuition.
    - rewrite IH. cbn [fst snd]. destruct (Nat.eqb a b) eqn:E.
      + apply Nat.eqb_eq in E; subst b. cbn [In]. split.
        * intuition.
        * intros [H|[H [[[= -> ->]|H']|[[= -> ->]|H']]]]; try lia; auto.
      + apply Nat.eqb_neq in E. rewrite add_edge_in. unfold ordered. cbn [fst snd In].
        destruct (Nat.leb_spec a b).
        * split.
          -- intros [[[= -> ->]|H0]|H0]; auto. right; split; [lia|auto]. intuition.
          -- intros [H0|[H0 [[[= -> ->]|H1]|[[= -> ->]|H1]]]]; auto; lia.
        * split.
          -- intros [[[= -> ->]|H0]|H0]; auto. right; split; [lia|auto]. intuition.
          -- intros [H0|[H0 [[[= -> ->]|H1]|[[= -> ->]|H1]]]]; auto; lia. }
  rewrite (G []). cbn. intuition.
Qed.

Lemma add_edge_nodup e s : NoDup s -> NoDup (add_edge e s).
Proof.
  unfold add_edge. destruct (edge_in e s) eqn:E; auto. intros N.
  apply (NoDup_Add (a := e) (l := s)).
  - rewrite <- (app_nil_r s) at 1. apply Add_app.
  - split; auto. rewrite <- edge_in_iff. congruence.
Qed.

Lemma simplify_nodup es : NoDup (simplify es).
Proof.
  unfold simplify. assert (G : forall acc, NoDup acc -> NoDup (fold_left (fun acc e =>
      if Nat.eqb (fst e) (snd e) then acc else add_edge (ordered e) acc) es acc)).
  { induction es as [|e es IH]; intros acc N; cbn; auto. apply IH.
    destruct (Nat.eqb _ _); auto. now apply add_edge_nodup. }
  apply G. constructor.
Qed.

(** ** the lattice *)
Hypothesis Hedge : Exists (fun ep => snd ep = true \/ 1 < fst ep) (combine extent pbc).

Lemma site_pos c : In c orig -> exists k, (k < length orig)%nat /\ site orig k = c.
Proof. intros H. destruct (In_nth orig c [] H) as [k [A B]]. exists k. auto. Qed.

Lemma naive_between a b : (a < length orig)%nat -> (b < length orig)%nat ->
  unit_step (site orig a) (site orig b) \/ unit_step (site orig b) (site orig a) ->
  In (a, b) (get_edges orig) \/ In (b, a) (get_edges orig).
Proof.
  intros Ha Hb U.
  assert (L : length (site orig a) = length (site orig b)) by now rewrite !site_len.
  destruct (Nat.lt_trichotomy a b) as [H|[->|H]].
  - left. apply get_edges_in. split; [lia|]. now apply dist2_1.
  - exfalso. assert (D : dist2 (site orig b) (site orig b) = 1) by now apply dist2_1.
    rewrite dist2_same in D. discriminate.
  - right. apply get_edges_in. split; [lia|]. apply dist2_1; auto. tauto.
Qed.

Lemma grid_ok : exists L, grid extent pbc = Ok L /\
  l_extent L = extent /\ l_pbc L = pbc /\
  StronglySorted lex (l_sites L) /\
  (forall c, In c (l_sites L) <-> in_box extent c) /\
  NoDup (l_edges L) /\
  (forall i j, In (i, j) (l_edges L) <-> (i < j < length (l_sites L))%nat /\
     neighbours extent pbc (nth i (l_sites L) []) (nth j (l_sites L) [])).
Proof.
  destruct (edge_loop_ok (get_edges orig) orig [] []) as [cur [E [X [C [S K]]]]].
  { split; auto. }
  { intros x y []. }
  { intros a b []. }
  { intros a b H. apply get_edges_in in H. lia. }
  cbn [app] in S, K.
  unfold grid. rewrite X. cbn [bind fst snd].
  assert (Hin : forall x y, In (x, y) E -> (x < length orig)%nat /\ (y < length orig)%nat /\
     ins x = true /\ ins y = true).
  { intros x y H. destruct (S x y H) as [a [b [N [_ [-> ->]]]]].
    apply get_edges_in in N. destruct N as [N _].
    assert (Ha : (a < length orig)%nat) by lia. assert (Hb : (b < length orig)%nat) by lia.
    repeat split; try (now apply w_ok); now apply w_ins. }
  assert (U : used_nodes (length orig) E = filter ins (seq 0 (length orig))).
  { unfold used_nodes. apply filter_ext_in. intros k Hk. apply in_seq in Hk.
    destruct (ins k) eqn:I.
    - apply existsb_exists.
      assert (B : in_box extent (site orig k)) by (apply ins_box; auto; lia).
      destruct (some_unit extent pbc (site orig k) Hlen B Hedge) as [v [Sv Uv]].
      destruct (site_pos v) as [j [Hj Ej]]; [now apply in_all_sites|]. subst v.
      assert (Wk : w k = k) by (apply w_inside; auto; lia).
      destruct (naive_between k j) as [N|N]; auto; try lia.
      + destruct (K k j N) as [Q|Q]; auto; rewrite Wk in Q;
          eexists; (split; [exact Q|]); cbn; rewrite Nat.eqb_refl, ?orb_true_r; reflexivity.
      + destruct (K j k N) as [Q|Q]; auto; rewrite Wk in Q;
          eexists; (split; [exact Q|]); cbn; rewrite Nat.eqb_refl, ?orb_true_r; reflexivity.
    - match goal with |- ?b = false => destruct b eqn:Q end; auto.
      apply existsb_exists in Q. destruct Q as [[x y] [Hxy Q]]. cbn in Q.
      destruct (Hin x y Hxy) as [_ [_ [Ix Iy]]].
      apply orb_true_iff in Q. rewrite !Nat.eqb_eq in Q. destruct Q; subst; congruence. }
  rewrite U. set (old := filter ins (seq 0 (length orig))).
  assert (Oin : forall k, In k old <-> (k < length orig)%nat /\ ins k = true).
  { intros k. unfold old. rewrite filter_In, in_seq. split; intros [A B]; split; auto; lia. }
  assert (Osort : StronglySorted lt old) by apply StronglySorted_filter, seq_sorted.
  assert (Onodup : NoDup old).
  { unfold old. apply NoDup_filter, seq_NoDup. }
  assert (Cur : map (site cur) old = map (site orig) old).
  { apply map_ext_in. intros k Hk. apply Oin in Hk. destruct Hk as [Hk I].
    destruct C as [_ C]. destruct (C k Hk) as [->| ->]; auto.
    apply wrap_id, ins_box; auto. }
  rewrite Cur. set (sites := map (site orig) old).
  assert (Sin : forall c, In c sites <-> in_box extent c).
  { intros c. unfold sites. rewrite in_map_iff. split.
    - intros [k [<- Hk]]. apply Oin in Hk. apply ins_box; tauto.
    - intros B. destruct (site_pos c) as [k [Hk Ek]].
      + now apply in_all_sites, box_shell.
      + exists k. split; auto. apply Oin. split; auto. apply ins_box; auto. now rewrite Ek. }
  assert (Ssort : StronglySorted lex sites).
  { unfold sites. assert (G : forall l, StronglySorted lt l ->
      (forall k, In k l -> (k < length orig)%nat) -> StronglySorted lex (map (site orig) l)).
    { induction 1 as [|a l Sl IH F]; intros Hl; cbn; constructor.
      - apply IH. intros; apply Hl; now right.
      - rewrite Forall_forall in *. intros c Hc. apply in_map_iff in Hc.
        destruct Hc as [b [<- Hb]]. unfold site.
        apply (StronglySorted_nth lex); [apply all_sites_sorted|].
        split; [auto|apply Hl; now right]. }
    apply G; auto. intros k Hk. now apply Oin in Hk. }
  assert (Lsites : length sites = length old) by apply map_length.
  assert (Hne : Nat.eqb (length old) 0 = false).
  { apply Nat.eqb_neq. intros Z.
    assert (B : in_box extent (map (fun _ => 0) extent)).
    { unfold in_box. clear - Hpos. induction Hpos; cbn; constructor; auto; lia. }
    apply Sin in B. apply In_nth with (d := []) in B. destruct B as [k [Hk _]]. lia. }
  rewrite Hne. eexists; split; [reflexivity|]. cbn [l_extent l_pbc l_sites l_edges].
  split; [reflexivity|]. split; [reflexivity|]. split; [exact Ssort|]. split; [exact Sin|].
  split; [apply simplify_nodup|].
  (* new names *)
  assert (New : forall k, In k old -> (find_pos k old < length sites)%nat /\
     nth (find_pos k old) sites [] = site orig k).
  { intros k Hk. destruct (find_pos_nth k old Hk) as [A B]. rewrite Lsites. split; auto.
    unfold sites. rewrite (nth_indep _ [] (site orig 0)) by now rewrite map_length.
    rewrite (map_nth (site orig)). now rewrite A. }
  assert (SN : NoDup sites) by now apply lex_nodup.
  assert (Nb : forall a b, In (a, b) (get_edges orig) -> ins a = true \/ ins b = true ->
     neighbours extent pbc (site orig (w a)) (site orig (w b))).
  { intros a b N I. apply get_edges_in in N. destruct N as [N D].
    assert (Ha : (a < length orig)%nat) by lia. assert (Hb : (b < length orig)%nat) by lia.
    destruct (w_ok a Ha) as [_ [_ ->]]. destruct (w_ok b Hb) as [_ [_ ->]].
    apply dist2_1 in D; [|now rewrite !site_len].
    pose proof (proj1 (in_all_sites _) (nth_In orig [] Ha)) as Sa.
    pose proof (proj1 (in_all_sites _) (nth_In orig [] Hb)) as Sb.
    rewrite (ins_box a), (ins_box b) in I by auto.
    destruct D as [D|D]; [left|right]; apply unit_wrap; auto. tauto. }
  assert (Old_of : forall i, (i < length sites)%nat ->
     exists k, In k old /\ find_pos k old = i /\ site orig k = nth i sites []).
  { intros i Hi. exists (nth i old 0%nat). rewrite Lsites in Hi.
    split; [now apply nth_In|]. split; [now apply find_pos_of_nth|].
    unfold sites. rewrite (nth_indep _ [] (site orig 0)) by now rewrite map_length.
    now rewrite (map_nth (site orig)). }
  intros i j. rewrite simplify_in. split.
  - intros [Lij H].
    assert (G : forall i j, In (i, j) (map (fun e => (find_pos (fst e) old, find_pos (snd e) old)) E) ->
       (i < length sites)%nat /\ (j < length sites)%nat /\
       neighbours extent pbc (nth i sites []) (nth j sites [])).
    { clear i j Lij H. intros i j H. apply in_map_iff in H. destruct H as [[x y] [[= <- <-] H]].
      cbn [fst snd]. destruct (Hin x y H) as [Hx [Hy [Ix Iy]]].
      destruct (New x) as [A1 A2]; [now apply Oin|].
      destruct (New y) as [B1 B2]; [now apply Oin|].
      split; [exact A1|]. split; [exact B1|]. rewrite A2, B2.
      destruct (S x y H) as [a [b [N [I [-> ->]]]]]. now apply Nb. }
    destruct H as [H|H]; destruct (G _ _ H) as [A [B D]].
    + split; [lia|exact D].
    + split; [lia|]. destruct D; [right|left]; auto.
  - intros [Lij Nij]. split; [lia|].
    assert (G : forall i j, (i < length sites)%nat -> (j < length sites)%nat ->
       step extent pbc (nth i sites []) (nth j sites []) ->
       In (i, j) (map (fun e => (find_pos (fst e) old, find_pos (snd e) old)) E) \/
       In (j, i) (map (fun e => (find_pos (fst e) old, find_pos (snd e) old)) E)).
    { clear i j Lij Nij. intros i j Hi Hj St.
      destruct (Old_of i Hi) as [a [Oa [Pa Ea]]]. destruct (Old_of j Hj) as [b [Ob [Pb Eb]]].
      rewrite <- Ea, <- Eb in St.
      apply Oin in Oa, Ob. destruct Oa as [Ha Ia]. destruct Ob as [Hb Ib].
      destruct (step_unit extent pbc (site orig a) (site orig b) Hlen) as [v [Sv [Uv Wv]]]; auto.
      { now apply ins_box. } { now apply ins_box. }
      destruct (site_pos v) as [c [Hc Ec]]; [now apply in_all_sites|]. subst v.
      assert (Wc : w c = b).
      { destruct (w_ok c Hc) as [_ [A B]]. rewrite Wv in B.
        apply (proj1 (NoDup_nth orig []) all_sites_nodup); auto. }
      assert (Wa : w a = a) by now apply w_inside.
      assert (Q : In (a, b) E \/ In (b, a) E).
      { destruct (naive_between a c Ha Hc) as [N|N]; [auto| |].
        - destruct (K a c N); auto; rewrite Wa, Wc in *; auto.
        - destruct (K c a N); auto; rewrite Wa, Wc in *; auto. }
      rewrite <- Pa, <- Pb.
      destruct Q as [Q|Q]; [left|right];
        apply (in_map (fun e => (find_pos (fst e) old, find_pos (snd e) old))) in Q; exact Q. }
    destruct Nij as [St|St].
    + apply G; auto; lia.
    + apply or_comm. apply G; auto; lia.
Qed.
End Grid.
