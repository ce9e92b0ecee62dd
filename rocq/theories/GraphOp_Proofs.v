(** * Proofs about graphs and graph operators *)
From Coq Require Import List ZArith Bool Arith Lia Permutation Sorting.Sorted Ring.
From Verif Require Import Base BaseFacts Scalar LocalOp_Spec LocalOp_Model LocalOp_Facts LocalOp_Build LocalOp_Proofs LocalOp_Final.
From Verif Require Import GraphOp_Model GraphOp_Spec.
Import ListNotations.
Open Scope nat_scope.

(** ** Graphs *)
Lemma clean_ok es : lens es ->
  clean_edges es = Ok (map edge_nodes es, map edge_color es).
Proof.
  intros [F|F]; destruct es as [|e0 es]; try reflexivity; unfold clean_edges;
    pose proof (Forall_inv F) as L0; cbn beta in L0; rewrite L0; cbn [Nat.eqb orb negb].
  - assert (A : forallb (fun e : list Z => length e =? 2) (e0 :: es) = true).
    { apply forallb_forall. intros e I. apply Nat.eqb_eq. rewrite Forall_forall in F. auto. }
    rewrite A. cbn [negb]. f_equal. f_equal. clear -F. generalize dependent (e0 :: es). intros l F.
    induction F as [|e l L F IH]; [reflexivity|]. cbn [length repeat map]. rewrite IH. f_equal.
    unfold edge_color. rewrite nth_overflow by lia. reflexivity.
  - assert (A : forallb (fun e : list Z => length e =? 3) (e0 :: es) = true).
    { apply forallb_forall. intros e I. apply Nat.eqb_eq. rewrite Forall_forall in F. auto. }
    rewrite A. reflexivity.
Qed.

Lemma clean_err es : ~ lens es -> clean_edges es = Err ValueError.
Proof.
  intros N. destruct es as [|e0 es]; [exfalso; apply N; left; constructor|]. unfold clean_edges.
  destruct ((length e0 =? 2) || (length e0 =? 3)) eqn:E0; [|reflexivity]. cbn [negb].
  destruct (forallb (fun e : list Z => length e =? length e0) (e0 :: es)) eqn:A; [|reflexivity].
  exfalso. apply N. rewrite forallb_forall in A.
  apply orb_true_iff in E0. destruct E0 as [E0|E0]; apply Nat.eqb_eq in E0; [left|right];
    apply Forall_forall; intros e I; apply A in I; apply Nat.eqb_eq in I; lia.
Qed.

Definition ends_in (n : nat) (e : list Z) : Prop :=
  (0 <= fst (edge_nodes e) < Z.of_nat n)%Z /\ (0 <= snd (edge_nodes e) < Z.of_nat n)%Z.

Definition max_node (es : list (Z * Z)) : Z :=
  match es with
  | [] => (-1)%Z
  | e :: es => fold_left (fun m e => Z.max m (Z.max (fst e) (snd e))) es (Z.max (fst e) (snd e))
  end.

Lemma fold_max es : forall m,
  (m <= fold_left (fun m (e : Z * Z) => Z.max m (Z.max (fst e) (snd e))) es m)%Z /\
  Forall (fun e => (fst e <= fold_left (fun m e => Z.max m (Z.max (fst e) (snd e))) es m)%Z /\
                   (snd e <= fold_left (fun m e => Z.max m (Z.max (fst e) (snd e))) es m)%Z) es /\
  (fold_left (fun m e => Z.max m (Z.max (fst e) (snd e))) es m = m \/
   exists e, In e es /\ (fold_left (fun m e => Z.max m (Z.max (fst e) (snd e))) es m = fst e \/
                         fold_left (fun m e => Z.max m (Z.max (fst e) (snd e))) es m = snd e)).
Proof.
  induction es as [|e es IH]; intros m; cbn [fold_left].
  - split; [lia|]. split; [constructor|]. left; reflexivity.
  - destruct (IH (Z.max m (Z.max (fst e) (snd e)))) as [A [B C]].
    split; [lia|]. split; [constructor; [lia|exact B]|].
    destruct C as [C|[e' [I C]]].
    + destruct (Z.max_spec m (Z.max (fst e) (snd e))) as [[? M]|[? M]]; rewrite M in *.
      * destruct (Z.max_spec (fst e) (snd e)) as [[? M']|[? M']]; right; exists e; (split; [left; reflexivity|]);
          rewrite C, M'; auto.
      * left. exact C.
    + right. exists e'. split; [right; exact I|exact C].
Qed.

Lemma max_node_spec es : es <> [] ->
  (forall e, In e es -> fst e <= max_node es /\ snd e <= max_node es)%Z /\
  exists e, In e es /\ (max_node es = fst e \/ max_node es = snd e).
Proof.
  destruct es as [|e es]; [congruence|]. intros _. unfold max_node.
  destruct (fold_max es (Z.max (fst e) (snd e))) as [A [B C]]. split.
  - intros e' [<-|I]; [lia|]. rewrite Forall_forall in B. auto.
  - destruct C as [C|[e' [I C]]].
    + exists e. split; [left; reflexivity|]. rewrite C. destruct (Z.max_spec (fst e) (snd e)) as [[? M]|[? M]]; rewrite M; auto.
    + exists e'. split; [right; exact I|exact C].
Qed.

Definition nodes_of (es : list (list Z)) (nodes : option nat) : nat :=
  match nodes with Some n => n | None => Z.to_nat (max_node (map edge_nodes es) + 1) end.

Definition norm_edge (e : Z * Z) : nat * nat :=
  (Z.to_nat (Z.min (fst e) (snd e)), Z.to_nat (Z.max (fst e) (snd e))).

Lemma mk_graph_eq es nodes : lens es ->
  mk_graph es nodes =
  if forallb (fun e => ((0 <=? fst e) && (0 <=? snd e) && (fst e <? Z.of_nat (nodes_of es nodes))
                        && (snd e <? Z.of_nat (nodes_of es nodes)))%Z) (map edge_nodes es)
  then Ok (mkGraph (nodes_of es nodes) (map norm_edge (map edge_nodes es)) (map edge_color es))
  else Err Exception_.
Proof.
  intros H. unfold mk_graph. rewrite (clean_ok _ H). cbn [bind fst snd].
  assert (E : match nodes with
              | Some n => n
              | None => match map edge_nodes es with
                | [] => 0
                | e :: es0 => Z.to_nat (fold_left (fun m e0 => Z.max m (Z.max (fst e0) (snd e0))) es0
                                          (Z.max (fst e) (snd e)) + 1)
                end
              end = nodes_of es nodes).
  { unfold nodes_of. destruct nodes; [reflexivity|]. destruct (map edge_nodes es); reflexivity. }
  rewrite E. reflexivity.
Qed.

Lemma ends_bool es n :
  forallb (fun e => ((0 <=? fst e) && (0 <=? snd e) && (fst e <? Z.of_nat n)
                        && (snd e <? Z.of_nat n))%Z) (map edge_nodes es) = true <->
  Forall (ends_in n) es.
Proof.
  rewrite forallb_forall, Forall_forall. split; intros H.
  - intros e I. specialize (H _ (in_map edge_nodes _ _ I)). unfold ends_in.
    rewrite !andb_true_iff, !Z.leb_le, !Z.ltb_lt in H. lia.
  - intros p I. apply in_map_iff in I. destruct I as [e [<- I]]. specialize (H e I). unfold ends_in in H.
    rewrite !andb_true_iff, !Z.leb_le, !Z.ltb_lt. lia.
Qed.

Lemma mk_graph_inv es nodes g : mk_graph es nodes = Ok g ->
  lens es /\ Forall (ends_in (n_nodes g)) es /\ n_nodes g = nodes_of es nodes /\
  g_edges g = map norm_edge (map edge_nodes es) /\ g_colors g = map edge_color es.
Proof.
  intros E.
  assert (H : lens es).
  { destruct es as [|e0 es']; [left; constructor|]. unfold lens.
    destruct (Forall_dec (fun e : list Z => length e = 2) (fun e => Nat.eq_dec _ _) (e0 :: es')) as [|A]; [left; assumption|].
    destruct (Forall_dec (fun e : list Z => length e = 3) (fun e => Nat.eq_dec _ _) (e0 :: es')) as [|B]; [right; assumption|].
    exfalso. unfold mk_graph in E. rewrite clean_err in E; [discriminate|]. intros [?|?]; tauto. }
  split; [exact H|]. rewrite (mk_graph_eq _ _ H) in E. destruct (forallb _ _) eqn:B in E; [|discriminate].
  injection E as <-. cbn [n_nodes g_edges g_colors]. apply ends_bool in B. auto.
Qed.

Lemma graph_edges es nodes g : mk_graph es nodes = Ok g ->
  length (edges_with_color g None) = length es /\ edges g None = map fst (edges_with_color g None) /\
  forall i, i < length es ->
  let e := nth i es [] in
  let '(u, v, c) := nth i (edges_with_color g None) (0, 0, 0%Z) in
  u <= v /\ v < n_nodes g /\ c = edge_color e /\
  (edge_nodes e = (Z.of_nat u, Z.of_nat v) \/ edge_nodes e = (Z.of_nat v, Z.of_nat u)).
Proof.
  intros E. destruct (mk_graph_inv _ _ _ E) as [_ [B [_ [Ed Co]]]].
  unfold edges_with_color, edges. rewrite Ed, Co.
  assert (Hl : length (map norm_edge (map edge_nodes es)) = length (map edge_color es)) by (rewrite !map_length; reflexivity).
  split; [rewrite combine_length, !map_length; lia|]. split; [rewrite map_fst_combine; auto|].
  intros i Hi. cbn zeta. rewrite combine_nth by exact Hl.
  change (0, 0) with (norm_edge (0%Z, 0%Z)). rewrite (map_nth norm_edge).
  change (0%Z, 0%Z) with (edge_nodes []). rewrite (map_nth edge_nodes).
  replace (nth i (map edge_color es) 0%Z) with (edge_color (nth i es [])) by (symmetry; apply (map_nth edge_color es [])).
  rewrite Forall_forall in B. specialize (B _ (nth_In es [] Hi)). unfold ends_in in B.
  destruct (edge_nodes (nth i es [])) as [a b]. cbn [fst snd] in B. unfold norm_edge. cbn [fst snd].
  split; [lia|]. split; [lia|]. split; [reflexivity|].
  destruct (Z.max_spec a b) as [[? M]|[? M]]; rewrite M; [left|right];
    destruct (Z.min_spec a b) as [[? M']|[? M']]; rewrite M', !Z2Nat.id; try lia; try reflexivity; f_equal; lia.
Qed.

Lemma graph_nodes es nodes g : mk_graph es nodes = Ok g ->
  match nodes with
  | Some n => n_nodes g = n
  | None => match es with
            | [] => n_nodes g = 0
            | _ => exists e, In e es /\
                (fst (edge_nodes e) = Z.of_nat (n_nodes g) - 1 \/ snd (edge_nodes e) = Z.of_nat (n_nodes g) - 1)%Z
            end
  end.
Proof.
  intros E. destruct (mk_graph_inv _ _ _ E) as [_ [B [N _]]]. unfold nodes_of in N.
  destruct nodes; [exact N|]. destruct es as [|e0 es']; [exact N|].
  destruct (max_node_spec (map edge_nodes (e0 :: es')) ltac:(discriminate)) as [_ [p [I M]]].
  apply in_map_iff in I. destruct I as [e [<- I]]. exists e. split; [exact I|].
  rewrite Forall_forall in B. specialize (B e I). unfold ends_in in B. rewrite N.
  destruct M as [M|M]; [left|right]; rewrite <- M in *; lia.
Qed.

Lemma graph_accepts es nodes :
  (exists g, mk_graph es nodes = Ok g) <->
  lens es /\ Forall (fun e => (0 <= fst (edge_nodes e))%Z /\ (0 <= snd (edge_nodes e))%Z /\
     match nodes with
     | Some n => (fst (edge_nodes e) < Z.of_nat n)%Z /\ (snd (edge_nodes e) < Z.of_nat n)%Z
     | None => True
     end) es.
Proof.
  split.
  - intros [g E]. destruct (mk_graph_inv _ _ _ E) as [H [B [N _]]]. split; [exact H|].
    eapply Forall_impl; [|exact B]. intros e P. unfold ends_in in P. rewrite N in P. unfold nodes_of in P.
    destruct nodes; [lia|]. repeat split; lia.
  - intros [H B]. rewrite (mk_graph_eq _ _ H).
    assert (Q : Forall (ends_in (nodes_of es nodes)) es).
    { rewrite Forall_forall in *. intros e I. specialize (B e I). unfold ends_in, nodes_of.
      destruct nodes; [lia|].
      destruct (max_node_spec (map edge_nodes es)) as [M _]; [destruct es; [destruct I|discriminate]|].
      specialize (M _ (in_map edge_nodes _ _ I)). lia. }
    apply ends_bool in Q. rewrite Q. eauto.
Qed.

Lemma graph_filter g c u v : In (u, v) (edges g (Some c)) <-> In (u, v, c) (edges_with_color g None).
Proof.
  unfold edges, edges_with_color. rewrite in_map_iff. split.
  - intros [[[a b] c'] [E I]]. cbn in E. injection E as -> ->. apply filter_In in I. destruct I as [I K].
    cbn in K. apply Z.eqb_eq in K. subst. exact I.
  - intros I. exists (u, v, c). split; [reflexivity|]. apply filter_In. split; [exact I|]. cbn. apply Z.eqb_refl.
Qed.

Lemma norm_id e : fst e <= snd e -> norm_edge (edge_nodes [Z.of_nat (fst e); Z.of_nat (snd e)]) = e.
Proof.
  intros H. unfold norm_edge, edge_nodes. cbn [nth fst snd]. rewrite Z.min_l, Z.max_r, !Nat2Z.id by lia.
  destruct e; reflexivity.
Qed.

Lemma doubled es nodes g : mk_graph es nodes = Ok g ->
  exists d, doubled_graph g = Ok d /\ n_nodes d = 2 * n_nodes g /\
    edges d None = edges g None ++ map (fun e => (fst e + n_nodes g, snd e + n_nodes g)) (edges g None).
Proof.
  intros E. destruct (mk_graph_inv _ _ _ E) as [H [B [N [Ed _]]]].
  assert (F : Forall (fun e => fst e <= snd e /\ snd e < n_nodes g) (g_edges g)).
  { rewrite Ed, map_map. apply Forall_forall. intros p I. apply in_map_iff in I. destruct I as [e [<- I]].
    rewrite Forall_forall in B. specialize (B e I). unfold ends_in in B. unfold norm_edge. cbn [fst snd]. lia. }
  unfold doubled_graph. set (de := g_edges g ++ _).
  assert (F' : Forall (fun e => fst e <= snd e /\ snd e < 2 * n_nodes g) de).
  { unfold de. apply Forall_app. split; [eapply Forall_impl; [|exact F]; cbn; lia|].
    apply Forall_forall. intros p I. apply in_map_iff in I. destruct I as [e [<- I]].
    rewrite Forall_forall in F. specialize (F e I). cbn [fst snd]. lia. }
  set (es' := map (fun e => [Z.of_nat (fst e); Z.of_nat (snd e)]) de).
  destruct (proj2 (graph_accepts es' (Some (2 * n_nodes g)))) as [d Ed'].
  - split.
    + left. apply Forall_forall. intros e I. apply in_map_iff in I. destruct I as [p [<- _]]. reflexivity.
    + apply Forall_forall. intros e I. apply in_map_iff in I. destruct I as [p [<- I]].
      rewrite Forall_forall in F'. specialize (F' p I). unfold edge_nodes. cbn [nth fst snd]. lia.
  - exists d. split; [exact Ed'|]. destruct (mk_graph_inv _ _ _ Ed') as [_ [_ [N' [Ee _]]]].
    split; [exact N'|]. unfold edges. rewrite Ee. unfold es'. rewrite !map_map.
    fold de. transitivity (map (fun e => e) de); [|apply map_id].
    apply map_ext_in. intros e I. apply norm_id. rewrite Forall_forall in F'. apply F', I.
Qed.

Lemma doubled_colors g d : doubled_graph g = Ok d -> Forall (fun c => c = 0%Z) (g_colors d).
Proof.
  intros E. apply mk_graph_inv in E. destruct E as [_ [_ [_ [_ ->]]]].
  apply Forall_forall. intros c I. apply in_map_iff in I. destruct I as [e [<- I]].
  apply in_map_iff in I. destruct I as [p [<- _]]. reflexivity.
Qed.

(** ** Graph operators *)
Definition simple (g : graph) : Prop :=
  length (g_edges g) = length (g_colors g) /\
  Forall (fun e => fst e < snd e /\ snd e < n_nodes g) (g_edges g).

Lemma mk_graph_simple es nodes g : mk_graph es nodes = Ok g ->
  Forall (fun e => fst (edge_nodes e) <> snd (edge_nodes e)) es -> simple g.
Proof.
  intros E F. destruct (mk_graph_inv _ _ _ E) as [H [B [N [Ed Co]]]]. split; [rewrite Ed, Co, !map_length; reflexivity|].
  rewrite Ed, map_map. apply Forall_forall. intros p I. apply in_map_iff in I. destruct I as [e [<- I]].
  rewrite Forall_forall in B, F. specialize (B e I). specialize (F e I). unfold ends_in in B. unfold norm_edge. cbn [fst snd]. lia.
Qed.

Section Ops.
Variable S : scalars.
Hypothesis L : scalar_laws S.
Add Ring Kring : (k_ring S L).
Variable depth : nat.
Variable hs : list (list Z).

Definition untyped (ts : list (bool * mat S * list nat)) : list (mat S * list nat) :=
  map (fun t => (snd (fst t), snd t)) ts.

Lemma typed_mk dtype ts : kinds_ok S dtype (map fst ts) ->
  typed_lop S (Datatypes.S depth) hs dtype ts = mk_lop S (Datatypes.S depth) hs (k0 S) (untyped ts).
Proof.
  intros Ko. unfold typed_lop, mk_lop. destruct (negb (forallb is_sorted hs)); [reflexivity|].
  set (dt := match dtype with Some d => d | None => _ end).
  assert (F : Forall (fun t => fst (fst t) && negb dt = false) ts).
  { destruct Ko as [->|[F|[-> F]]].
    - subst dt. apply Forall_forall. intros. rewrite andb_false_r. reflexivity.
    - rewrite Forall_map in F. eapply Forall_impl; [|exact F]. intros [[k m] a] E0. cbn in E0 |- *. rewrite E0. reflexivity.
    - rewrite Forall_map in F. destruct ts as [|[[k m] a] ts]; [constructor|]. pose proof (Forall_inv F) as F0. cbn in F0. subst dt. cbn [fst snd]. rewrite F0.
      apply Forall_forall. intros. rewrite andb_false_r. reflexivity. }
  clearbody dt. unfold add_operators, untyped. generalize (Ok (mkLop S [] [] [] [] (k0 S) (kbige S (k0 S)) true) : res (lop S)).
  induction F as [|t ts Ht F IH]; intros acc; [reflexivity|]. cbn [map filter snd].
  assert (K' : kinds_ok S dtype (map fst ts)).
  { destruct Ko as [?|[A|[? A]]]; [left; assumption|right; left|right; right; split; [assumption|]]; inversion A; assumption. }
  destruct t as [[k m] [|a act]]; cbn [fst snd]; [apply IH; exact K'|]. cbn [fold_left fst snd] in Ht |- *.
  rewrite <- (IH K'). f_equal. destruct acc; [|reflexivity]. cbn [bind fst snd]. rewrite Ht. reflexivity.
Qed.

Lemma sum_flat_map {A B} (f : A -> list B) (h : B -> K S) l :
  sum S (map h (flat_map f l)) = sum S (map (fun a => sum S (map h (f a))) l).
Proof.
  induction l as [|a l IH]; [reflexivity|]. cbn [flat_map map]. rewrite map_app, (sum_app S L), IH. reflexivity.
Qed.

Lemma site_terms_valid g (site_ops : list (bool * mat S)) : n_nodes g = length hs ->
  (forall m i, In m (map snd site_ops) -> i < length hs -> square S m (length (nth i hs []))) ->
  Forall (fun t => valid_term S hs t /\ ordered_or_uniform hs (snd t)) (untyped (site_terms S g site_ops)).
Proof.
  intros N H. unfold site_terms. destruct (0 <? length site_ops); [|constructor].
  apply Forall_forall. intros t I. unfold untyped in I. apply in_map_iff in I. destruct I as [[op act] [<- I]].
  apply in_flat_map in I. destruct I as [i [Ii I]]. apply in_map_iff in I. destruct I as [op' [E I]].
  injection E as -> <-. apply in_seq in Ii. cbn [fst snd]. split.
  - split; [discriminate|]. split; [repeat constructor; cbn; tauto|]. split.
    + cbn [snd]. intros s [<-|[]]. lia.
    + cbn [fst snd local_dim map fold_right]. rewrite Nat.mul_1_r. apply H; [apply in_map, I|lia].
  - left. repeat constructor.
Qed.

Lemma edge_term_valid g (m : mat S) e : simple g -> n_nodes g = length hs -> In e (edges_with_color g None) ->
  square S m (length (nth (fst (fst e)) hs []) * length (nth (snd (fst e)) hs [])) ->
  valid_term S hs (m, [fst (fst e); snd (fst e)]) /\ ordered_or_uniform hs [fst (fst e); snd (fst e)].
Proof.
  intros [_ F] N I Q. destruct e as [[u v] c]. cbn [edges_with_color] in I. apply in_combine_l in I.
  rewrite Forall_forall in F. specialize (F _ I). cbn [fst snd] in *. split.
  - split; [discriminate|]. split; [repeat constructor; cbn; intuition lia|]. split.
    + cbn [snd]. intros s [<-|[<-|[]]]; lia.
    + cbn [fst snd local_dim map fold_right]. rewrite Nat.mul_1_r. exact Q.
  - left. repeat constructor. lia.
Qed.

Lemma edges_fst g : simple g -> edges g None = map fst (edges_with_color g None).
Proof. intros [E _]. unfold edges, edges_with_color. rewrite map_fst_combine; auto. Qed.

Lemma bond_terms_ok g (bond_ops : list (bool * mat S)) colors : simple g -> n_nodes g = length hs -> colors_ok S bond_ops colors ->
  (forall m oc e, In (m, oc) (bond_spec S bond_ops colors) -> In e (edges_with_color g None) ->
     match oc with None => True | Some c => c = snd e end ->
     square S m (length (nth (fst (fst e)) hs []) * length (nth (snd (fst e)) hs []))) ->
  exists ts, bond_terms S g bond_ops colors = Ok ts /\
    Forall (fun t => valid_term S hs t /\ ordered_or_uniform hs (snd t)) (untyped ts) /\
    (forall t, In t ts -> In (fst t) bond_ops) /\
    forall x y, sum S (map (fun t => term_element S hs (fst t) (snd t) x y) (untyped ts)) =
      sum S (map (fun e => sum S (map (fun oc =>
        if match snd oc with None => true | Some c => (c =? snd e)%Z end
        then term_element S hs (fst oc) [fst (fst e); snd (fst e)] x y else k0 S)
        (bond_spec S bond_ops colors))) (edges_with_color g None)).
Proof.
  intros G N C Q. unfold bond_terms. destruct C as [[-> O]|[Nc O]].
  - cbn [length Nat.ltb Nat.leb]. destruct bond_ops as [|op [|? ?]]; try discriminate.
    eexists. split; [reflexivity|]. rewrite (edges_fst g G). split; [|split].
    + unfold untyped. rewrite !map_map. apply Forall_forall. intros t I. apply in_map_iff in I.
      destruct I as [e [<- I]]. cbn [fst snd]. apply (edge_term_valid g); auto.
      apply (Q _ None); [left; reflexivity|exact I|exact Logic.I].
    + intros t I. apply in_map_iff in I. destruct I as [e [<- _]]. left; reflexivity.
    + intros x y. unfold untyped. rewrite !map_map. apply (sum_ext S). intros e _. cbn. ring.
  - assert (Z1 : (0 <? length colors) = true) by (destruct colors; [congruence|reflexivity]).
    rewrite Z1. rewrite <- O, Nat.eqb_refl in *. cbn [negb]. rewrite Z1.
    assert (BS : bond_spec S bond_ops colors = map (fun oc => (snd (fst oc), Some (snd oc))) (combine bond_ops colors))
      by (destruct colors; [congruence|reflexivity]).
    eexists. split; [reflexivity|]. split; [|split].
    + apply Forall_forall. intros t I. unfold untyped in I. apply in_map_iff in I. destruct I as [[op act] [<- I]].
      apply in_flat_map in I. destruct I as [e [Ie I]]. apply in_flat_map in I. destruct I as [oc [Io I]].
      destruct (snd oc =? snd e)%Z eqn:K; [|destruct I]. destruct I as [E|[]]. injection E as <- <-. cbn [fst snd].
      apply (edge_term_valid g); auto. apply (Q _ (Some (snd oc))); [|exact Ie|apply Z.eqb_eq, K].
      rewrite BS. apply in_map_iff. exists oc. split; [reflexivity|exact Io].
    + intros t I. apply in_flat_map in I. destruct I as [e [Ie I]]. apply in_flat_map in I. destruct I as [oc [Io I]].
      destruct (snd oc =? snd e)%Z eqn:K; [|destruct I]. destruct I as [<-|[]]. cbn [fst].
      destruct oc as [o c]. apply in_combine_l in Io. exact Io.
    + intros x y. unfold untyped. rewrite map_map, sum_flat_map. apply (sum_ext S). intros e _.
      rewrite sum_flat_map, BS, map_map. apply (sum_ext S). intros oc _. cbn [fst snd].
      destruct (snd oc =? snd e)%Z; cbn; ring.
Qed.

Lemma site_terms_in g (site_ops : list (bool * mat S)) t : In t (site_terms S g site_ops) -> In (fst t) site_ops.
Proof.
  unfold site_terms. destruct (0 <? length site_ops); [|intros []]. intros I.
  apply in_flat_map in I. destruct I as [i [_ I]]. apply in_map_iff in I. destruct I as [op [<- I]]. exact I.
Qed.

Lemma kinds_sub dtype (ops ops' : list (bool * mat S)) : kinds_ok S dtype ops -> (forall t, In t ops' -> In t ops) -> kinds_ok S dtype ops'.
Proof.
  intros [K|[K|[E K]]] H; [left; exact K|right; left|right; right; split; [exact E|]];
    rewrite Forall_forall in *; auto.
Qed.

Lemma site_sum g (site_ops : list (bool * mat S)) x y : n_nodes g = length hs ->
  sum S (map (fun t => term_element S hs (fst t) (snd t) x y) (untyped (site_terms S g site_ops))) =
  sum S (map (fun i => sum S (map (fun m => term_element S hs m [i] x y) (map snd site_ops))) (seq 0 (length hs))).
Proof.
  intros N. unfold site_terms. destruct site_ops as [|o os].
  - cbn [length Nat.ltb Nat.leb untyped map]. symmetry. apply (sum_zero S L). intros; reflexivity.
  - set (ops := o :: os). change (0 <? length ops) with true. cbn iota. unfold untyped.
    rewrite map_map, sum_flat_map, N. apply (sum_ext S). intros i _. rewrite !map_map. reflexivity.
Qed.

Lemma graph_row g (site_ops bond_ops : list (bool * mat S)) colors dtype x junk junkx :
  sorted_space hs -> no_small S ->
  simple g -> n_nodes g = length hs -> colors_ok S bond_ops colors -> kinds_ok S dtype (site_ops ++ bond_ops) ->
  sizes_ok S hs (edges_with_color g None) (map snd site_ops) (bond_spec S bond_ops colors) -> configuration hs x ->
  exists o, graph_operator S (Datatypes.S depth) hs g site_ops bond_ops colors dtype = Ok o /\
    row_or_fault S hs
      (graph_element S hs (map snd site_ops) (bond_spec S bond_ops colors) (edges_with_color g None) x)
      (get_conn S hs o junk junkx x).
Proof.
  intros Hs NS G N C Ko [Q1 Q2] Cx.
  destruct (bond_terms_ok g bond_ops colors G N C Q2) as [ts [Eb [Vb [Ib Sb]]]].
  unfold graph_operator. rewrite N, Nat.eqb_refl. cbn [negb].
  assert (Nb : (length bond_ops =? 0) = false).
  { apply Nat.eqb_neq. destruct C as [[_ C]|[Nc C]]; [lia|]. destruct colors; [congruence|cbn in C; lia]. }
  rewrite Nb. cbn [andb]. rewrite Eb. cbn [bind].
  rewrite typed_mk.
  2:{ apply (kinds_sub _ _ _ Ko). intros t I. rewrite map_app, in_app_iff in I. apply in_app_iff.
      destruct I as [I|I]; apply in_map_iff in I; destruct I as [t' [<- I]]; [left; eapply site_terms_in, I|right; apply Ib, I]. }
  destruct (new_row S L depth hs Hs NS (k0 S) (untyped (site_terms S g site_ops ++ ts)) x junk junkx) as [o [Eo R]].
  - unfold untyped. rewrite map_app. apply Forall_app. split; [apply site_terms_valid; assumption|exact Vb].
  - exact Cx.
  - exists o. split; [exact Eo|].
    assert (X : forall y, element S hs (k0 S) (untyped (site_terms S g site_ops ++ ts)) x y =
                graph_element S hs (map snd site_ops) (bond_spec S bond_ops colors) (edges_with_color g None) x y).
    { intros y. unfold element, graph_element. unfold untyped. rewrite map_app, map_app, (sum_app S L).
      fold (untyped (site_terms S g site_ops)). fold (untyped ts). pose proof (site_sum g site_ops x y N) as SS. specialize (Sb x y).
      transitivity (kadd S (k0 S) (kadd S
        (sum S (map (fun t => term_element S hs (fst t) (snd t) x y) (untyped (site_terms S g site_ops))))
        (sum S (map (fun t => term_element S hs (fst t) (snd t) x y) (untyped ts))))).
      - destruct (zlist_eqb x y); reflexivity.
      - rewrite Sb, SS. unfold mat. ring. }
    clear Sb. revert R. unfold row_or_fault. destruct (get_conn S hs o junk junkx x) as [l|e].
    + intros [A D]. split; [exact A|]. intros y Hy. rewrite D by exact Hy. apply X.
    + intros [A B]. split; [exact A|]. intros y Hy. rewrite <- X. auto.
Qed.
End Ops.
