(** * Proofs for C118 *)
From Coq Require Import List Bool Arith ZArith Lia Sorting.Permutation Sorting.Sorted.
From Verif Require Import Base BaseFacts GraphCls_Model GraphCls_Spec.
Import ListNotations.
Open Scope nat_scope.

(** ** construction *)
Lemma all_len_ok {A} (f : A -> list Z) k l : (forall x, length (f x) = k) ->
  all_len k (map (fun x => PSeq (f x)) l) = Ok tt.
Proof. intros H. induction l; cbn; [auto|]. now rewrite H, Nat.eqb_refl. Qed.

Lemma clean_plain l : clean (Some (plain_edges l)) =
  Ok (map (fun e => (Z.of_nat (fst e), Z.of_nat (snd e))) l, repeat 0%Z (length l)).
Proof.
  destruct l as [|e l]; [reflexivity|]. unfold plain_edges, clean. cbn [map length Nat.eqb orb negb].
  change (PSeq [Z.of_nat (fst e); Z.of_nat (snd e)] :: map (fun e => PSeq [Z.of_nat (fst e); Z.of_nat (snd e)]) l)
    with (map (fun e : nat * nat => PSeq [Z.of_nat (fst e); Z.of_nat (snd e)]) (e :: l)).
  rewrite (all_len_ok (fun e : nat * nat => [Z.of_nat (fst e); Z.of_nat (snd e)])) by auto.
  cbn [bind]. f_equal. f_equal; [rewrite map_map; reflexivity|cbn; now rewrite map_length].
Qed.
Lemma clean_coloured l : clean (Some (coloured_edges l)) =
  Ok (map (fun e => (Z.of_nat (fst (fst e)), Z.of_nat (snd (fst e)))) l, map snd l).
Proof.
  destruct l as [|e l]; [reflexivity|]. unfold coloured_edges, clean. cbn [map length Nat.eqb orb negb].
  change (PSeq [Z.of_nat (fst (fst e)); Z.of_nat (snd (fst e)); snd e]
          :: map (fun e => PSeq [Z.of_nat (fst (fst e)); Z.of_nat (snd (fst e)); snd e]) l)
    with (map (fun e : edge => PSeq [Z.of_nat (fst (fst e)); Z.of_nat (snd (fst e)); snd e]) (e :: l)).
  rewrite (all_len_ok (fun e : edge => [Z.of_nat (fst (fst e)); Z.of_nat (snd (fst e)); snd e])) by auto.
  cbn [bind]. f_equal. f_equal; rewrite map_map; reflexivity.
Qed.

Lemma igraph_ok n (l : list edge) :
  (forall a b c, In (a, b, c) l -> a < n /\ b < n) ->
  igraph_new (Z.of_nat n) (map (fun e => (Z.of_nat (fst (fst e)), Z.of_nat (snd (fst e)))) l) (map snd l)
  = Ok (mkGraph n (map (fun e => (undirected (fst e), snd e)) l)).
Proof.
  intros H. unfold igraph_new. destruct (Z.ltb_spec (Z.of_nat n) 0); [lia|]. rewrite Nat2Z.id.
  match goal with |- context [combine ?x ?y] =>
    replace (combine x y)
      with (map (fun e : edge => (Z.of_nat (fst (fst e)), Z.of_nat (snd (fst e)), snd e)) l)
      by (clear; induction l as [|x0 l IH]; cbn; [auto|now rewrite IH]) end.
  rewrite map_map.
  match goal with |- context [sequence (map ?f l)] =>
    assert (sequence (map f l) = Ok (map (fun e : edge => (undirected (fst e), snd e)) l)) as Hs end.
  2:{ rewrite Hs. reflexivity. }
  apply sequence_ok.
  intros [[a b] c] Hi. cbn [fst snd igraph_edge]. destruct (H a b c Hi) as [Ha Hb].
  destruct (Z.ltb_spec (Z.of_nat a) 0); [lia|]. destruct (Z.ltb_spec (Z.of_nat b) 0); [lia|].
  destruct (Z.leb_spec (Z.of_nat n) (Z.of_nat a)); [lia|].
  destruct (Z.leb_spec (Z.of_nat n) (Z.of_nat b)); [lia|]. cbn [orb].
  unfold undirected. cbn [fst snd]. rewrite <- Nat2Z.inj_min, <- Nat2Z.inj_max, !Nat2Z.id. reflexivity.
Qed.

Lemma plain_as_coloured (l : list (nat * nat)) :
  map (fun e => (Z.of_nat (fst e), Z.of_nat (snd e))) l
  = map (fun e : edge => (Z.of_nat (fst (fst e)), Z.of_nat (snd (fst e)))) (map (fun e => (e, 0%Z)) l) /\
  repeat 0%Z (length l) = map snd (map (fun e => (e, 0%Z)) l).
Proof.
  split; rewrite map_map; [reflexivity|]. induction l; cbn; [auto|now f_equal].
Qed.

Lemma new_coloured n l : (forall a b c, In (a, b, c) l -> a < n /\ b < n) ->
  mk_graph (Some (coloured_edges l)) (Some (Z.of_nat n))
  = Ok (mkGraph n (map (fun e => (undirected (fst e), snd e)) l)).
Proof. intros H. unfold mk_graph. rewrite clean_coloured. cbn [bind fst snd]. now apply igraph_ok. Qed.
Lemma new_plain n l : (forall a b, In (a, b) l -> a < n /\ b < n) ->
  mk_graph (Some (plain_edges l)) (Some (Z.of_nat n))
  = Ok (mkGraph n (map (fun e => (undirected e, 0%Z)) l)).
Proof.
  intros H. unfold mk_graph. rewrite clean_plain. cbn [bind fst snd].
  destruct (plain_as_coloured l) as [-> ->]. rewrite igraph_ok; [now rewrite map_map|].
  intros a b c Hi. apply in_map_iff in Hi as ([a' b'] & E & Hi). injection E as <- <- <-. auto.
Qed.

Lemma fold_max (r : list (Z * Z)) : forall m,
  (m <= fold_left (fun m e => Z.max m (Z.max (fst e) (snd e))) r m)%Z /\
  (forall a b, In (a, b) r -> (a <= fold_left (fun m e => Z.max m (Z.max (fst e) (snd e))) r m)%Z /\
                              (b <= fold_left (fun m e => Z.max m (Z.max (fst e) (snd e))) r m)%Z) /\
  (fold_left (fun m e => Z.max m (Z.max (fst e) (snd e))) r m = m \/
   exists a b, In (a, b) r /\ fold_left (fun m e => Z.max m (Z.max (fst e) (snd e))) r m = Z.max a b).
Proof.
  induction r as [|[x y] r IH]; intros m; cbn [fold_left fst snd].
  - split; [lia|]. split; [intros a b []|auto].
  - destruct (IH (Z.max m (Z.max x y))) as (H1 & H2 & H3). split; [lia|]. split.
    + intros a b [E|Hi]; [injection E as <- <-; lia|auto].
    + destruct H3 as [->|(a & b & Hi & ->)].
      * destruct (Z.le_ge_cases m (Z.max x y)); [right; exists x, y; split; [left; auto|lia]|left; lia].
      * right. exists a, b. split; [right; auto|auto].
Qed.

Lemma new_default l : l <> [] ->
  exists n, mk_graph (Some (coloured_edges l)) None
            = Ok (mkGraph n (map (fun e => (undirected (fst e), snd e)) l)) /\
    (forall a b c, In (a, b, c) l -> a < n /\ b < n) /\
    exists a b c, In (a, b, c) l /\ n = S (Nat.max a b).
Proof.
  intros Hne. unfold mk_graph. rewrite clean_coloured. cbn [bind fst snd].
  destruct l as [|[[x y] z] l]; [congruence|]. cbn [map fst snd default_n].
  set (r := map (fun e : edge => (Z.of_nat (fst (fst e)), Z.of_nat (snd (fst e)))) l).
  destruct (fold_max r (Z.max (Z.of_nat x) (Z.of_nat y))) as (H1 & H2 & H3).
  remember (fold_left (fun m e => Z.max m (Z.max (fst e) (snd e))) r (Z.max (Z.of_nat x) (Z.of_nat y))) as m.
  assert (forall a b c, In (a, b, c) ((x, y, z) :: l) -> a < Z.to_nat (m + 1) /\ b < Z.to_nat (m + 1)) as Hb.
  { intros a b c [E|Hi]; [injection E as <- <- <-; lia|].
    destruct (H2 (Z.of_nat a) (Z.of_nat b)); [|lia].
    apply in_map_iff. exists (a, b, c). auto. }
  exists (Z.to_nat (m + 1)). split; [|split; [exact Hb|]].
  - pose proof (igraph_ok (Z.to_nat (m + 1)) ((x, y, z) :: l) Hb) as E.
    rewrite Z2Nat.id in E by lia. subst m. exact E.
  - destruct H3 as [E|(a & b & Hi & E)].
    + exists x, y, z. split; [left; auto|lia].
    + apply in_map_iff in Hi as ([[a' b'] c'] & E2 & Hi). injection E2 as <- <-.
      exists a', b', c'. split; [right; auto|]. cbn in E. lia.
Qed.

Lemma sequence_err {A B} (f : A -> res B) l x : In x l -> raises (f x) -> raises (sequence (map f l)).
Proof.
  intros Hi (e & E). induction l as [|y l IH]; [contradiction|]. cbn [map sequence].
  destruct Hi as [->|Hi].
  - rewrite E. now exists e.
  - destruct (f y) as [b|e']; cbn [bind]; [|now exists e'].
    destruct (IH Hi) as (e' & ->). now exists e'.
Qed.

Lemma ends_all (l : list (Z * Z)) : map ends (map (fun e => PSeq [fst e; snd e]) l) = l.
Proof. induction l as [|[a b] l IH]; [reflexivity|]. cbn [map]. rewrite IH. reflexivity. Qed.

Lemma bad_node n (l : list (Z * Z)) a b :
  In (a, b) l -> (a < 0 \/ b < 0 \/ n <= a \/ n <= b)%Z ->
  raises (mk_graph (Some (map (fun e => PSeq [fst e; snd e]) l)) (Some n)).
Proof.
  intros Hi Hb. unfold mk_graph.
  assert (clean (Some (map (fun e : Z * Z => PSeq [fst e; snd e]) l)) = Ok (l, repeat 0%Z (length l))) as ->.
  { destruct l as [|e l]; [reflexivity|]. unfold clean. cbn [map length Nat.eqb orb negb].
    change (PSeq [fst e; snd e] :: map (fun e => PSeq [fst e; snd e]) l)
      with (map (fun e : Z * Z => PSeq [fst e; snd e]) (e :: l)).
    rewrite (all_len_ok (fun e : Z * Z => [fst e; snd e])) by auto. cbn [bind]. f_equal. f_equal.
    - exact (ends_all (e :: l)).
    - cbn. now rewrite map_length. }
  cbn [bind fst snd]. unfold igraph_new. destruct (Z.ltb_spec n 0); [now exists ValueError|].
  destruct (sequence_err (igraph_edge (Z.to_nat n)) (combine l (repeat 0%Z (length l))) (a, b, 0%Z))
    as (e & ->); [| |now exists e].
  - clear -Hi. induction l as [|x l IH]; [contradiction|]. cbn. destruct Hi as [->|Hi]; auto.
  - cbn. rewrite Z2Nat.id by lia.
    destruct (Z.ltb_spec a 0); [now exists ValueError|]. destruct (Z.ltb_spec b 0); [now exists ValueError|].
    destruct (Z.leb_spec n a); [now exists ValueError|]. destruct (Z.leb_spec n b); [now exists ValueError|].
    lia.
Qed.

Lemma all_len_bad k es e : In e es -> length (items e) <> k \/ (exists z, e = PInt z) -> raises (all_len k es).
Proof.
  intros Hi He. induction es as [|x es IH]; [contradiction|]. destruct Hi as [->|Hi].
  - destruct e as [z|l]; cbn; [now exists TypeError|].
    destruct He as [He|(z & E)]; [|discriminate E]. apply Nat.eqb_neq in He. cbn in He. rewrite He.
    now exists ValueError.
  - destruct x as [z|l]; cbn; [now exists TypeError|].
    destruct (Nat.eqb (length l) k); [auto|now exists ValueError].
Qed.

Lemma bad_edges es n :
  (forall e, In e es -> exists l, e = PSeq l /\ length l = 2) \/
  (forall e, In e es -> exists l, e = PSeq l /\ length l = 3) \/
  raises (mk_graph (Some es) n).
Proof.
  destruct es as [|e0 r]; [left; intros e []|].
  destruct e0 as [z|l0]; [right; right; now exists ValueError|].
  unfold mk_graph, clean.
  destruct (Nat.eqb (length l0) 2 || Nat.eqb (length l0) 3) eqn:E; cbn [negb];
    [|right; right; now exists ValueError].
  assert ((forall e, In e (PSeq l0 :: r) -> exists l, e = PSeq l /\ length l = length l0) \/
          raises (all_len (length l0) (PSeq l0 :: r))) as H.
  { generalize (PSeq l0 :: r). clear. intros es. induction es as [|e es IH]; [left; intros e []|].
    destruct IH as [IH|IH].
    - destruct e as [z|l]; [right; now exists TypeError|].
      destruct (Nat.eq_dec (length l) (length l0)) as [El|El].
      + left. intros e [<-|Hi]; eauto.
      + right. cbn. apply Nat.eqb_neq in El. rewrite El. now exists ValueError.
    - right. destruct e as [z|l]; [now exists TypeError|]. cbn.
      destruct (Nat.eqb (length l) (length l0)); [auto|now exists ValueError]. }
  destruct H as [H|(e & ->)]; [|right; right; now exists e].
  apply orb_true_iff in E as [E|E]; apply Nat.eqb_eq in E; [left|right; left]; intros e Hi;
    destruct (H e Hi) as (l & -> & El); exists l; split; auto; lia.
Qed.

Lemma round_trip g : wf g -> mk_graph (Some (coloured_edges (g_edges g))) (Some (Z.of_nat (g_n g))) = Ok g.
Proof.
  intros H. rewrite new_coloured.
  - f_equal. destruct g as [n es]. cbn in *. f_equal. unfold wf in H. cbn in H.
    transitivity (map (fun x : edge => x) es); [|apply map_id]. apply map_ext_in. intros [[a b] c] Hi. specialize (H a b c Hi).
    unfold undirected. cbn. do 2 f_equal; lia.
  - intros a b c Hi. specialize (H a b c Hi). lia.
Qed.

Lemma built_wf es n g : mk_graph es n = Ok g -> wf g.
Proof.
  unfold mk_graph. destruct (clean es) as [[l cs]|]; cbn [bind fst snd]; [|discriminate].
  set (m := match n with Some n => n | None => default_n l end) in *.
  unfold igraph_new. destruct (Z.ltb_spec m 0) as [|Hn]; [discriminate|].
  destruct (sequence _) as [r|] eqn:E; cbn [bind]; [|discriminate]. intros H. injection H as <-.
  intros a b c Hi. cbn in *. revert r E Hi. induction (combine l cs) as [|[[x y] z] q IH]; intros r E Hi.
  - cbn in E. injection E as <-. contradiction.
  - cbn [map sequence] in E. destruct (igraph_edge (Z.to_nat m) (x, y, z)) as [e|] eqn:E1; [|discriminate E].
    cbn [bind] in E. destruct (sequence (map (igraph_edge (Z.to_nat m)) q)) as [t|] eqn:E2; [|discriminate E].
    injection E as <-. destruct Hi as [->|Hi]; [|eauto].
    cbn in E1. destruct (_ || _) eqn:E3; [discriminate E1|]. injection E1 as <- <- <-.
    apply orb_false_iff in E3 as [E3 C4]. apply orb_false_iff in E3 as [E3 C3].
    apply orb_false_iff in E3 as [C1 C2].
    apply Z.ltb_ge in C1, C2. apply Z.leb_gt in C3, C4. lia.
Qed.

(** ** edges *)
Lemma edges_plain g : edges g CNone false None = Ok (Plain (map fst (g_edges g))).
Proof. reflexivity. Qed.
Lemma edges_coloured g : edges g CNone true None = Ok (Coloured (g_edges g)).
Proof. reflexivity. Qed.
Lemma edges_filtered g c : exists l, edges g CNone true (Some c) = Ok (Coloured l) /\
  edges g CNone false (Some c) = Ok (Plain (map fst l)) /\
  l = filter (fun e => Z.eqb (snd e) c) (g_edges g) /\
  forall e, In e l <-> In e (g_edges g) /\ snd e = c.
Proof.
  exists (filter (fun e => Z.eqb (snd e) c) (g_edges g)). do 3 (split; [reflexivity|]).
  intros e. rewrite filter_In, Z.eqb_eq. tauto.
Qed.
Lemma edges_old g b c rc fc :
  edges g (CBool b) rc fc = edges g CNone b fc /\ edges g (CInt c) rc fc = edges g CNone rc (Some c) /\
  edges g COther rc fc = Err TypeError.
Proof. repeat split. Qed.

(** ** doubled graph and union *)
Lemma joined_bound g i j c : wf g -> joined g i j c -> i < g_n g /\ j < g_n g.
Proof. intros H [Hi|Hi]; apply H in Hi; lia. Qed.

Lemma doubled_ok g : wf g -> exists d, doubled g = Ok d /\ wf d /\ g_n d = 2 * g_n g /\
  (forall i j, i < g_n g ->
     ((exists c, joined d i j c) <-> exists c, joined g i j c)) /\
  (forall i j, (exists c, joined d (i + g_n g) j c) <-> exists j' c, j = j' + g_n g /\ joined g i j' c).
Proof.
  intros H. unfold doubled. set (n := g_n g). set (es := map fst (g_edges g)).
  set (dl := es ++ map (fun e => (fst e + n, snd e + n)) es).
  assert (forall a b, In (a, b) es -> a <= b < n) as He.
  { intros a b Hi. apply in_map_iff in Hi as ([[x y] c] & E & Hi). cbn in E. injection E as <- <-. eapply H; eauto. }
  assert (forall a b, In (a, b) dl -> a < 2 * n /\ b < 2 * n) as Hd.
  { intros a b Hi. apply in_app_or in Hi as [Hi|Hi]; [apply He in Hi; lia|].
    apply in_map_iff in Hi as ([x y] & E & Hi). cbn in E. injection E as <- <-. apply He in Hi. lia. }
  pose proof (new_plain (2 * n) dl Hd) as E. unfold plain_edges in E.
  exists (mkGraph (2 * n) (map (fun e => (undirected e, 0%Z)) dl)). split; [exact E|].
  split; [eapply built_wf; exact E|]. split; [reflexivity|].
  assert (forall a b, (exists c, In (a, b, c) (map (fun e => (undirected e, 0%Z)) dl)) <-> In (a, b) dl) as Hin.
  { intros a b. split.
    - intros (c & Hi). apply in_map_iff in Hi as ([x y] & E2 & Hi).
      assert (x <= y) as Hxy.
      { unfold dl in Hi. apply in_app_or in Hi as [Hi|Hi]; [apply He in Hi; lia|].
        apply in_map_iff in Hi as ([u v] & E3 & Hi). cbn in E3. injection E3 as <- <-. apply He in Hi. lia. }
      unfold undirected in E2. cbn in E2. injection E2 as <- <- <-.
      rewrite Nat.min_l, Nat.max_r by lia. exact Hi.
    - intros Hi. exists 0%Z. apply in_map_iff. exists (a, b). split; [|exact Hi].
      assert (a <= b) as Hxy.
      { unfold dl in Hi. apply in_app_or in Hi as [Hi|Hi]; [apply He in Hi; lia|].
        apply in_map_iff in Hi as ([u v] & E3 & Hi). cbn in E3. injection E3 as <- <-. apply He in Hi. lia. }
      unfold undirected. cbn. now rewrite Nat.min_l, Nat.max_r by lia. }
  assert (forall a b, In (a, b) es <-> exists c, In (a, b, c) (g_edges g)) as Hes.
  { intros a b. split.
    - intros Hi. apply in_map_iff in Hi as ([[x y] c] & E2 & Hi). cbn in E2. injection E2 as <- <-. eauto.
    - intros (c & Hi). apply in_map_iff. exists (a, b, c). auto. }
  assert (forall i j, (exists c, joined (mkGraph (2 * n) (map (fun e => (undirected e, 0%Z)) dl)) i j c) <->
            In (i, j) dl \/ In (j, i) dl) as Hj.
  { intros i j. rewrite <- !Hin. unfold joined. cbn. split.
    - intros (c & [Hi|Hi]); eauto.
    - intros [(c & Hi)|(c & Hi)]; eauto. }
  assert (forall i j, (exists c, joined g i j c) <-> In (i, j) es \/ In (j, i) es) as Hg.
  { intros i j. rewrite !Hes. unfold joined. split.
    - intros (c & [Hi|Hi]); eauto.
    - intros [(c & Hi)|(c & Hi)]; eauto. }
  assert (forall a b, In (a, b) (map (fun e => (fst e + n, snd e + n)) es) <->
            exists a' b', a = a' + n /\ b = b' + n /\ In (a', b') es) as Hsh.
  { intros a b. rewrite in_map_iff. split.
    - intros ([x y] & E2 & Hi). cbn in E2. injection E2 as <- <-. eauto.
    - intros (x & y & -> & -> & Hi). exists (x, y). auto. }
  split.
  - intros i j Hlt. rewrite Hj, Hg. unfold dl. rewrite !in_app_iff, !Hsh. split.
    + intros [[Hi|(a & b & E1 & E2 & _)]|[Hi|(a & b & E1 & E2 & _)]]; auto; lia.
    + tauto.
  - intros i j. rewrite Hj. unfold dl. rewrite !in_app_iff, !Hsh. split.
    + intros [[Hi|(a & b & E1 & E2 & Hi)]|[Hi|(a & b & E1 & E2 & Hi)]].
      * apply He in Hi. lia.
      * assert (a = i) as -> by lia. destruct (proj2 (Hg i b)) as (c & Hc); [auto|]. exists b, c. auto.
      * apply He in Hi. lia.
      * assert (b = i) as -> by lia. destruct (proj2 (Hg i a)) as (c & Hc); [auto|]. exists a, c. auto.
    + intros (j' & c & -> & Hc). destruct (proj1 (Hg i j')) as [Hi|Hi]; [eauto| |].
      * left. right. exists i, j'. auto.
      * right. right. exists j', i. auto.
Qed.

Lemma doubled_separate g d : wf g -> doubled g = Ok d ->
  forall i j, walk d i j -> i < g_n g -> j < g_n g.
Proof.
  intros H E. destruct (doubled_ok g H) as (d' & E' & _ & _ & H1 & _).
  assert (d' = d) as -> by congruence.
  intros i j W. induction W as [|i j k c Hj W IH]; [auto|]. intros Hi. apply IH.
  destruct (proj1 (H1 i j Hi)) as (c' & Hc); [eauto|]. apply joined_bound in Hc; [lia|auto].
Qed.

Lemma union_in g h a b c : In (a, b, c) (g_edges (disjoint_union g h)) <->
  In (a, b, c) (g_edges g) \/
  exists a' b', a = a' + g_n g /\ b = b' + g_n g /\ In (a', b', c) (g_edges h).
Proof.
  unfold disjoint_union. cbn [g_edges]. split.
  - intros Hi. apply in_app_or in Hi as [Hi|Hi]; [auto|]. right.
    apply in_map_iff in Hi as ([[x y] z] & E & Hi). injection E as <- <- <-. eauto.
  - intros [Hi|(x & y & -> & -> & Hi)]; apply in_or_app; [auto|]. right.
    apply in_map_iff. exists (x, y, c). auto.
Qed.

Lemma union_ok g h : wf g -> wf h ->
  wf (disjoint_union g h) /\ g_n (disjoint_union g h) = g_n g + g_n h /\
  (forall i j c, i < g_n g -> (joined (disjoint_union g h) i j c <-> joined g i j c)) /\
  (forall i j c, joined (disjoint_union g h) (i + g_n g) j c <-> exists j', j = j' + g_n g /\ joined h i j' c).
Proof.
  intros Hg Hh. pose proof (union_in g h) as Hu.
  split; [|split; [reflexivity|split]].
  - intros a b c Hi. apply Hu in Hi. change (g_n (disjoint_union g h)) with (g_n g + g_n h).
    destruct Hi as [Hi|(a' & b' & -> & -> & Hi)]; [apply Hg in Hi; lia|]. apply Hh in Hi. lia.
  - intros i j c Hlt. unfold joined. rewrite !Hu. split.
    + intros [[Hi|(a & b & E1 & E2 & _)]|[Hi|(a & b & E1 & E2 & _)]]; auto; lia.
    + tauto.
  - intros i j c. unfold joined. rewrite !Hu. split.
    + intros [[Hi|(a & b & E1 & E2 & Hi)]|[Hi|(a & b & E1 & E2 & Hi)]].
      * apply Hg in Hi. lia.
      * assert (a = i) as -> by lia. eauto.
      * apply Hg in Hi. lia.
      * assert (b = i) as -> by lia. eauto.
    + intros (j' & -> & [Hi|Hi]).
      * left. right. exists i, j'. auto.
      * right. right. exists j', i. auto.
Qed.

(** ** automorphisms *)
Lemma lex_eq a : forall b, lex a b = Eq -> a = b.
Proof.
  induction a as [|x a IH]; intros [|y b] H; try discriminate H; [auto|]. cbn in H.
  destruct (Nat.compare_spec x y); try discriminate H. subst. f_equal. auto.
Qed.
Lemma lex_sym a : forall b, lex b a = CompOpp (lex a b).
Proof.
  induction a as [|x a IH]; intros [|y b]; cbn; auto.
  rewrite Nat.compare_antisym. destruct (Nat.compare x y); cbn; auto.
Qed.
Lemma lex_trans a : forall b c, lex a b = Lt -> lex b c = Lt -> lex a c = Lt.
Proof.
  induction a as [|x a IH]; intros [|y b] [|z c] H1 H2; cbn in *; try discriminate; auto.
  destruct (Nat.compare_spec x y); try discriminate H1;
    destruct (Nat.compare_spec y z); try discriminate H2; subst.
  - rewrite Nat.compare_refl. eauto.
  - now rewrite (proj2 (Nat.compare_lt_iff _ _)).
  - now rewrite (proj2 (Nat.compare_lt_iff _ _)).
  - rewrite (proj2 (Nat.compare_lt_iff x z)); [auto|lia].
Qed.
Definition before (a b : list nat) : Prop := lex a b = Lt.

Lemma insert_in r l x : In x (insert_row r l) <-> x = r \/ In x l.
Proof.
  induction l as [|s l IH]; cbn; [intuition|].
  destruct (lex r s) eqn:E; cbn; [|intuition|rewrite IH; intuition].
  apply lex_eq in E as ->. intuition.
Qed.
Lemma unique_in l x : In x (unique_rows l) <-> In x l.
Proof. induction l as [|r l IH]; cbn; [tauto|]. rewrite insert_in, IH. intuition. Qed.

Lemma insert_sorted r l : StronglySorted before l -> StronglySorted before (insert_row r l).
Proof.
  induction l as [|s l IH]; intros H; cbn; [constructor; constructor|].
  inversion_clear H as [|? ? H1 H2]. destruct (lex r s) eqn:E.
  - constructor; auto.
  - constructor; [constructor; auto|]. constructor; [exact E|].
    rewrite Forall_forall in *. intros x Hx. eapply lex_trans; [exact E|]. now apply H2.
  - constructor; [auto|]. rewrite Forall_forall in *. intros x Hx. apply insert_in in Hx as [->|Hx]; [|auto].
    unfold before. rewrite lex_sym, E. reflexivity.
Qed.
Lemma unique_sorted l : StronglySorted before (unique_rows l).
Proof. induction l; cbn; [constructor|now apply insert_sorted]. Qed.

Lemma sorted_nodup l : StronglySorted before l -> NoDup l.
Proof.
  induction 1 as [|x l H IH Hf]; constructor; [|auto]. intros Hi. rewrite Forall_forall in Hf.
  specialize (Hf x Hi). unfold before in Hf.
  assert (forall y, lex y y = Eq) as R by (clear; induction y; cbn; rewrite ?Nat.compare_refl; auto).
  rewrite R in Hf. discriminate Hf.
Qed.

Lemma identity_least m : forall k p, Permutation p (seq k m) -> lex (seq k m) p <> Gt.
Proof.
  induction m as [|m IH]; intros k p H; cbn [seq] in *.
  - apply Permutation_sym, Permutation_nil in H. subst. discriminate.
  - destruct p as [|x p]; [apply Permutation_length in H; discriminate H|]. cbn [lex].
    destruct (Nat.compare_spec k x) as [->|Hlt|Hgt]; [|discriminate|].
    + apply IH. eapply Permutation_cons_inv. exact H.
    + exfalso. assert (In x (k :: seq (S k) m)) as Hx by (eapply Permutation_in; [exact H|left; auto]).
      destruct Hx as [Hx|Hx]; [lia|]. apply in_seq in Hx. lia.
Qed.

Lemma identity_auto g : automorphism g (seq 0 (g_n g)).
Proof.
  split; [apply Permutation_refl|]. intros i j c Hi Hj. rewrite !seq_nth by auto. reflexivity.
Qed.

Lemma automorphisms_ok vf2 g : finds_all vf2 g ->
  let l := fst (automorphisms vf2 None g) in
  (forall p, In p l <-> automorphism g p) /\ NoDup l /\ hd [] l = seq 0 (g_n g) /\
  fst (automorphisms vf2 (snd (automorphisms vf2 None g)) g) = l.
Proof.
  intros H l. cbn in l. subst l. cbn.
  assert (forall p, In p (unique_rows (vf2 g)) <-> automorphism g p) as Hin
    by (intros p; rewrite unique_in; apply H).
  split; [exact Hin|]. split; [apply sorted_nodup, unique_sorted|]. split; [|reflexivity].
  pose proof (unique_sorted (vf2 g)) as Hs.
  pose proof (proj2 (Hin _) (identity_auto g)) as Hid.
  destruct (unique_rows (vf2 g)) as [|p r]; [contradiction|]. cbn.
  destruct Hid as [Hid|Hid]; [auto|]. exfalso.
  inversion_clear Hs as [|? ? _ Hf]. rewrite Forall_forall in Hf. specialize (Hf _ Hid).
  assert (automorphism g p) as [Hp _] by (apply Hin; left; auto).
  apply (identity_least (g_n g) 0 p Hp). rewrite lex_sym, Hf. reflexivity.
Qed.

Lemma perm_bound n p i : Permutation p (seq 0 n) -> i < n -> nth i p 0 < n.
Proof.
  intros H Hi. assert (In (nth i p 0) (seq 0 n)) as Hin.
  { eapply Permutation_in; [exact H|]. apply nth_In. rewrite (Permutation_length H), seq_length. exact Hi. }
  apply in_seq in Hin. lia.
Qed.
Lemma map_nth_seq (p : list nat) : map (fun i => nth i p 0) (seq 0 (length p)) = p.
Proof.
  apply nth_ext with (d := 0) (d' := 0); [now rewrite map_length, seq_length|].
  intros k Hk. rewrite map_length, seq_length in Hk.
  rewrite (nth_indep _ 0 (nth 0 p 0)) by now rewrite map_length, seq_length.
  rewrite (map_nth (fun i => nth i p 0)), seq_nth by auto. reflexivity.
Qed.

Lemma compose_auto g p q : automorphism g p -> automorphism g q -> automorphism g (compose p q).
Proof.
  intros [Hp Ep] [Hq Eq]. unfold compose. split.
  - eapply Permutation_trans; [apply Permutation_map; exact Hq|].
    assert (g_n g = length p) as -> by (rewrite (Permutation_length Hp); now rewrite seq_length).
    rewrite map_nth_seq. rewrite (Permutation_length Hp), seq_length. exact Hp.
  - assert (length q = g_n g) as Lq by (rewrite (Permutation_length Hq); apply seq_length).
    assert (forall i, i < g_n g -> nth i (map (fun i => nth i p 0) q) 0 = nth (nth i q 0) p 0) as E.
    { intros i Hi. rewrite (nth_indep _ 0 (nth 0 p 0)) by (rewrite map_length; lia).
      now rewrite (map_nth (fun i => nth i p 0)). }
    intros i j c Hi Hj. rewrite (E i Hi), (E j Hj). rewrite (Eq i j c Hi Hj).
    apply Ep; apply perm_bound; auto.
Qed.

Lemma group_closed vf2 g : finds_all vf2 g ->
  let l := fst (automorphisms vf2 None g) in
  forall p q, In p l -> In q l -> In (compose p q) l.
Proof.
  intros H l. destruct (automorphisms_ok vf2 g H) as (Hin & _). fold l in Hin.
  intros p q Hp Hq. apply Hin. apply compose_auto; now apply Hin.
Qed.

(** ** distances *)
Lemma distances_ok shortest g i j : i < g_n g -> j < g_n g ->
  nth j (nth i (distances shortest g) []) Inf
  = match shortest i j with Some d => Fin (Z.of_nat d) | None => Inf end.
Proof.
  intros Hi Hj. unfold distances.
  set (f := fun i => map (fun j => match shortest i j with Some d => Fin (Z.of_nat d) | None => Inf end)
                         (seq 0 (g_n g))).
  rewrite (nth_indep _ [] (f 0)) by now rewrite map_length, seq_length.
  rewrite (map_nth f), seq_nth by auto. unfold f. cbn [plus].
  set (h := fun j => match shortest i j with Some d => Fin (Z.of_nat d) | None => Inf end).
  rewrite (nth_indep _ Inf (h 0)) by now rewrite map_length, seq_length.
  rewrite (map_nth h), seq_nth by auto. reflexivity.
Qed.
