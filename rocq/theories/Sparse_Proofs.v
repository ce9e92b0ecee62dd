(** * The sparse matrix has the connected elements as entries *)
From Coq Require Import ZArith List Bool Lia Sorting.Sorted.
From Verif Require Import Base BaseFacts Hilbert_Model Hilbert_Spec Hilbert_Proofs
  HilbertOps_Spec HilbertOps_Proofs Scalar LocalOp_Model LocalOp_Spec LocalOp_Build LocalOp_Proofs
  LocalOp_Facts LocalOp_Laws Sparse_Model.
Import ListNotations.

Section P.
Variable S : scalars.

Lemma ends_nth {A} (rows : list (list A)) : forall start i, (i < length rows)%nat ->
  nth i (start :: ends start (map (@length _) rows)) O
    = (start + length (concat (firstn i rows)))%nat /\
  nth (Datatypes.S i) (start :: ends start (map (@length _) rows)) O
    = (start + length (concat (firstn i rows)) + length (nth i rows []))%nat.
Proof.
  induction rows as [|r rows IH]; intros start i Hi; simpl in Hi; [lia|].
  destruct i as [|i].
  - cbn. split; lia.
  - destruct (IH (start + length r)%nat i) as [I1 I2]; [lia|].
    cbn [map ends] in *. cbn [nth firstn concat] in *. rewrite app_length. split; [rewrite I1|rewrite I2]; lia.
Qed.

Lemma slice_concat {A} (rows : list (list A)) i : (i < length rows)%nat ->
  firstn (length (nth i rows [])) (skipn (length (concat (firstn i rows))) (concat rows)) = nth i rows [].
Proof.
  revert i. induction rows as [|r rows IH]; intros i Hi; simpl in Hi; [lia|].
  destruct i as [|i].
  - cbn [nth firstn concat length skipn]. rewrite firstn_app, Nat.sub_diag. cbn. rewrite app_nil_r.
    apply firstn_all.
  - cbn [nth firstn concat]. rewrite app_length. rewrite skipn_app.
    rewrite skipn_all2 by lia. cbn [app].
    replace (length r + length (concat (firstn i rows)) - length r)%nat with (length (concat (firstn i rows))) by lia.
    apply IH. lia.
Qed.

Definition nums_of (h : hilbert) (x : list Z) : Z :=
  match states_to_numbers h x with Ok n => n | Err _ => 0%Z end.

Lemma combine_concat {A B C D} (f : A * B -> C) (g : A * B -> D) (rows : list (list (A * B))) :
  combine (concat (map (map f) rows)) (concat (map (map g) rows))
  = map (fun p => (f p, g p)) (concat rows).
Proof.
  induction rows as [|r rows IH]; simpl; auto.
  rewrite map_app, <- IH. clear IH.
  assert (G : forall l, combine (map f r ++ l) (map g r ++ concat (map (map g) rows))
     = map (fun p => (f p, g p)) r ++ combine l (concat (map (map g) rows))).
  { induction r; simpl; intros; auto. f_equal; auto. }
  apply G.
Qed.

Lemma sequence_map_ok' {A B} (f : A -> res B) (g : A -> B) l :
  (forall a, In a l -> f a = Ok (g a)) -> sequence (map f l) = Ok (map g l).
Proof.
  induction l as [|a l IH]; simpl; intros H; auto. rewrite (H a) by auto.
  rewrite IH; auto.
Qed.

Lemma index_of_state h (L : list (list Z)) : sane h -> all_states h = Ok L ->
  forall j, (j < length L)%nat -> states_to_numbers h (nth j L []) = Ok (Z.of_nat j).
Proof.
  intros Hs HL j Hj. destruct (sane_n_states h Hs) as (N & EN & HN).
  unfold all_states in HL. rewrite EN in HL. cbn [bind] in HL.
  destruct (all_states_spec h Hs) as (L' & HL' & _ & _ & HN').
  unfold all_states in HL'. rewrite EN in HL'. cbn [bind] in HL'. rewrite HL in HL'. inversion HL'; subst L'.
  rewrite EN in HN'. inversion HN'; subst N.
  destruct (round_trip_numbers h _ Hs EN (Z.of_nat j)) as (s & E1 & C & E2); [lia|].
  assert (E : nth j L [] = s).
  { clear - HL Hj E1. unfold zrange in HL. rewrite Nat2Z.id in HL. rewrite map_map in HL.
    assert (G : forall n f (l : list (list Z)), sequence (map f (seq n (length l))) = Ok l ->
      forall j, (j < length l)%nat -> f (n + j)%nat = Ok (nth j l [])).
    { clear. intros n f l. remember (length l) as k eqn:Ek. revert n l Ek.
      induction k as [|k IH]; intros n l Ek H j Hj; [lia|]. cbn [seq map sequence] in H.
      destruct (f n) as [b|] eqn:Ef; [|discriminate]. cbn [bind] in H.
      destruct (sequence _) as [bs|] eqn:Es; [|discriminate]. cbn [bind] in H. inversion H; subst l.
      destruct j as [|j].
      - rewrite Nat.add_0_r. exact Ef.
      - cbn [nth]. replace (n + Datatypes.S j)%nat with (Datatypes.S n + j)%nat by lia.
        apply IH; auto; cbn in *; lia. }
    specialize (G _ _ _ HL j Hj). cbn [Nat.add] in G. rewrite E1 in G. inversion G. auto. }
  rewrite E. exact E2.
Qed.

Theorem to_sparse_ok h L gc rows :
  sane h -> all_states h = Ok L ->
  gc L = Ok (concat (map (map snd) rows), concat (map (map fst) rows), ends 0 (map (@length _) rows)) ->
  length rows = length L ->
  (forall row p, In row rows -> In p row -> config h (fst p)) ->
  exists m, to_sparse S h gc = Ok m /\ cs_n S m = Z.of_nat (length L) /\
    forall i j, (i < length L)%nat -> (j < length L)%nat ->
      csr_entry S m i (Z.of_nat j) = weight S (nth i rows []) (nth j L []).
Proof.
  intros Hs HL Hgc Hlen Hcfg. unfold to_sparse. rewrite HL. cbn [bind]. rewrite Hgc. cbn [bind fst snd].
  destruct (all_states_spec h Hs) as (L' & HL' & _ & HIn & HN). rewrite HL in HL'. inversion HL'; subst L'.
  assert (HC : forall x, In x (concat (map (map fst) rows)) -> config h x).
  { intros x Hx. apply in_concat in Hx. destruct Hx as (r & Hr & Hx).
    apply in_map_iff in Hr. destruct Hr as (row & <- & Hr). apply in_map_iff in Hx.
    destruct Hx as (p & <- & Hp). eapply Hcfg; eauto. }
  assert (Hnum : forall x, config h x -> exists n, (0 <= n < Z.of_nat (length L))%Z /\ states_to_numbers h x = Ok n /\ numbers_to_states h n = Ok x).
  { intros x Hx. apply (round_trip_states h _ Hs HN x Hx). }
  assert (Hok : forall x, config h x -> states_to_numbers h x = Ok (nums_of h x)).
  { intros x Hx. destruct (Hnum x Hx) as (n & _ & E & _). unfold nums_of. rewrite E. auto. }
  rewrite (sequence_map_ok' _ (nums_of h)) by auto. cbn [bind]. rewrite HN. cbn [bind].
  replace (existsb _ _) with false.
  2:{ symmetry. destruct (existsb _ _) eqn:E; auto. apply existsb_exists in E.
      destruct E as (k & Hk & E). apply in_map_iff in Hk. destruct Hk as (x & <- & Hx).
      destruct (Hnum x (HC x Hx)) as (n & Hn & E2 & _). unfold nums_of in E. rewrite E2 in E.
      apply orb_true_iff in E. destruct E as [E|E]; [apply Z.ltb_lt in E|apply Z.leb_le in E]; lia. }
  eexists. split; [reflexivity|]. split; [reflexivity|]. intros i j Hi Hj. unfold csr_entry.
  cbn [cs_indptr cs_indices cs_data].
  destruct (ends_nth rows 0 i) as [E1 E2]; [lia|]. rewrite E1, E2. cbn [Nat.add].
  replace (length (concat (firstn i rows)) + length (nth i rows []) - length (concat (firstn i rows)))%nat
    with (length (nth i rows [])) by lia.
  assert (EC : combine (map (nums_of h) (concat (map (map fst) rows))) (concat (map (map snd) rows))
     = map (fun p => (nums_of h (fst p), snd p)) (concat rows)).
  { rewrite concat_map, map_map.
    rewrite <- (combine_concat (fun p : list Z * K S => nums_of h (fst p)) snd). f_equal. f_equal.
    apply map_ext. intros r. rewrite map_map. auto. }
  rewrite EC. rewrite skipn_map, firstn_map, slice_concat by lia. rewrite map_map. cbn [fst snd].
  unfold weight, sum. f_equal. apply map_ext_in. intros p Hp.
  assert (Cp : config h (fst p)) by (eapply Hcfg; [|exact Hp]; apply nth_In; lia).
  assert (Cj : config h (nth j L [])) by (apply HIn; apply nth_In; lia).
  pose proof (index_of_state h L Hs HL j Hj) as Ej.
  destruct (zlist_eqb (fst p) (nth j L [])) eqn:Ez.
  - apply zlist_eqb_eq in Ez. rewrite Ez. unfold nums_of. rewrite Ej, Z.eqb_refl. auto.
  - destruct (Z.eqb_spec (nums_of h (fst p)) (Z.of_nat j)) as [E|E]; auto. exfalso.
    destruct (Hnum (fst p) Cp) as (n & _ & G1 & G2). destruct (Hnum (nth j L []) Cj) as (n' & _ & G3 & G4).
    rewrite Ej in G3. inversion G3; subst n'. unfold nums_of in E. rewrite G1 in E. subst n.
    rewrite G2 in G4. inversion G4 as [G5]. rewrite G5 in Ez.
    rewrite (proj2 (zlist_eqb_eq _ _) eq_refl) in Ez. discriminate.
Qed.

End P.

(** ** configurations of a space, site by site *)
Lemma spin_sorted c k : forall a,
  StronglySorted Z.lt (map (fun i => (c + 2 * Z.of_nat i)%Z) (seq a k)).
Proof.
  induction k as [|k IH]; intros a; cbn [seq map]; constructor; auto.
  apply Forall_forall. intros x Hx. apply in_map_iff in Hx. destruct Hx as (y & <- & Hy).
  apply in_seq in Hy. lia.
Qed.

Lemma site_states_sorted h : flippable h -> sorted_space (site_states h).
Proof.
  assert (Leaf : forall h, flippable_leaf h -> sorted_space (site_states h)).
  { intros g Hg. assert (G : forall ls, local_states g = Some ls -> StronglySorted Z.lt ls).
    { intros ls. destruct g as [m fin N np|s2 N t|N|[cl|] N c|l|p]; cbn in Hg; cbn [local_states]; try tauto.
      - destruct fin; [|discriminate]. intros E; inversion E. apply zrange_sorted.
      - intros E; inversion E. apply spin_sorted.
      - intros E; inversion E. repeat constructor.
      - intros E; inversion E; subst. apply increasing_sorted; auto. }
    unfold sorted_space. destruct g; cbn in Hg; try tauto; cbn [site_states];
      (apply Forall_forall; intros x Hx; apply repeat_spec in Hx; subst x;
       cbv beta; destruct (local_states _) as [ls0|] eqn:E; [apply G; auto|apply SSorted_nil]). }
  revert h. fix IH 2. intros h Hh. destruct Hh as [h Hl|l Hl|p Hp].
  - apply Leaf; auto.
  - cbn [site_states]. unfold sorted_space. apply Forall_concat. apply Forall_map.
    induction Hl as [|h l H1 H2 IHl]; constructor; auto. apply IH. exact H1.
  - cbn [site_states]. apply Forall_app. split; apply Leaf; auto.
Qed.

Lemma configuration_repeat ls N x :
  configuration (repeat ls N) x <-> length x = N /\ forall v, In v x -> In v ls.
Proof.
  unfold configuration. split.
  - intros H. split; [rewrite (Forall2_length _ _ _ H), repeat_length; auto|].
    remember (repeat ls N) as r eqn:E. revert N E. induction H as [|v l x r Hv H IH]; intros N E w Hw; [destruct Hw|].
    destruct N as [|N]; [discriminate|]. cbn in E. inversion E; subst.
    destruct Hw as [->|Hw]; auto. eapply IH; eauto.
  - intros [E H]. subst N. induction x as [|v x IH]; cbn; constructor; auto.
    + apply H. left; auto.
    + apply IH. intros w Hw. apply H. right; auto.
Qed.

Lemma config_sites h x : config h x -> configuration (site_states h) x.
Proof.
  intros H. induction H; cbn [site_states local_states].
  - apply configuration_repeat. split; auto. intros v Hv. apply H0 in Hv. apply in_zrange. lia.
  - apply configuration_repeat. split; auto. intros v Hv. destruct (H0 v Hv) as (k & Hk & ->).
    apply in_map_iff. exists (Z.to_nat k). split; [lia|]. apply in_seq. lia.
  - apply configuration_repeat. split; auto. intros v Hv. destruct (H0 v Hv); subst; simpl; auto.
  - apply configuration_repeat. split; auto.
  - constructor.
  - cbn [map concat] in *. apply Forall2_app; auto.
  - apply Forall2_app; auto.
Qed.

Lemma sites_config h : free h -> forall x, configuration (site_states h) x -> config h x.
Proof.
  revert h. fix IH 1. intros h Hh x Hx. destruct h as [m fin N [|]|s2 N [|]|N|[ls|] N [|]|l|p]; cbn in Hh; try tauto.
  - subst fin. cbn [site_states local_states] in Hx. apply configuration_repeat in Hx. destruct Hx as [E H].
    constructor; auto; [|discriminate]. intros v Hv. apply H in Hv. apply in_zrange in Hv. lia.
  - cbn [site_states local_states] in Hx. apply configuration_repeat in Hx. destruct Hx as [E H].
    constructor; auto; [|discriminate]. intros v Hv. apply H in Hv. apply in_map_iff in Hv.
    destruct Hv as (k & <- & Hk). apply in_seq in Hk. exists (Z.of_nat k). lia.
  - cbn [site_states local_states] in Hx. apply configuration_repeat in Hx. destruct Hx as [E H].
    constructor; auto. intros v Hv. apply H in Hv. simpl in Hv. lia.
  - cbn [site_states local_states] in Hx. apply configuration_repeat in Hx. destruct Hx as [E H].
    constructor; auto. discriminate.
  - cbn [site_states] in Hx. revert x Hx. induction l as [|g l IHl]; intros x Hx; cbn in Hx.
    + inversion Hx. constructor.
    + apply Forall2_app_inv_r in Hx. destruct Hx as (a & b & Ha & Hb & ->).
      constructor; [apply IH; [apply Hh|exact Ha]|apply IHl; [apply Hh|exact Hb]].
  - cbn [site_states] in Hx. apply Forall2_app_inv_r in Hx. destruct Hx as (a & b & Ha & Hb & ->).
    constructor; apply IH; auto.
Qed.
