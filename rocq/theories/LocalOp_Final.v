(** * The statements of C12-C20 and C26, proved from the lemmas *)
From Coq Require Import ZArith List Bool Lia Sorting.Sorted Ring.
From Verif Require Import Base BaseFacts Hilbert_Model Hilbert_Spec Hilbert_Proofs HilbertOps_Spec Scalar
  LocalOp_Model LocalOp_Spec LocalOp_Facts LocalOp_Kernel LocalOp_Reorder LocalOp_Build
  LocalOp_Matmul LocalOp_Laws LocalOp_Proofs Sparse_Model Sparse_Proofs.
Import ListNotations.

Section F.
Variable S : scalars.
Hypothesis L : scalar_laws S.
Notation K := (K S).
Variable depth : nat.
Notation dp := (Datatypes.S depth).
Variable hs : list (list Z).
Hypothesis Hs : sorted_space hs.

Lemma expr_row (NS : no_small S) e o x junk junkx :
  valid_expr S hs e -> no_product S e \/ (exists d, uniform_space hs d) ->
  build S dp hs e = Ok o -> configuration hs x ->
  row_or_fault S hs (denote S hs e x) (get_conn S hs o junk junkx x).
Proof.
  intros HV HU HB Hx.
  pose proof (build_good S L NS depth hs Hs e o HV HU HB) as HG.
  exact (good_row S L NS hs Hs o _ x junk junkx HG Hx).
Qed.

Lemma new_row (NS : no_small S) c ts x junk junkx :
  Forall (fun t => valid_term S hs t /\ ordered_or_uniform hs (snd t)) ts ->
  configuration hs x ->
  exists o, mk_lop S dp hs c ts = Ok o /\
    row_or_fault S hs (element S hs c ts x) (get_conn S hs o junk junkx x).
Proof.
  intros HV Hx. destruct (build_total S L NS depth hs Hs (New S c ts)) as [o E]; [exact HV|left; exact I|].
  exists o. split; [exact E|]. apply (expr_row NS (New S c ts)); auto. left; exact I.
Qed.

Lemma significant_kept ts : filter (significant S) ts = kept S ts.
Proof.
  unfold kept. apply filter_ext. intros t. unfold significant.
  induction (fst t) as [|r m IH]; simpl; auto. rewrite IH, negb_andb. f_equal.
  induction r as [|k r IHr]; simpl; auto. rewrite IHr, negb_andb, negb_involutive. auto.
Qed.

Lemma cutoff_row c ts x junk junkx :
  Forall (fun t => valid_term S hs t /\ increasing_sites (snd t)) ts ->
  NoDup (map snd ts) -> clear_diagonal S c ts -> configuration hs x ->
  exists o, mk_lop S dp hs c ts = Ok o /\
    row_or_fault S hs (element S hs c (cut_terms S ts) x) (get_conn S hs o junk junkx x).
Proof.
  intros HV HN HD Hx.
  assert (V1 : Forall (valid_term S hs) ts) by (eapply Forall_impl; [|exact HV]; cbn; tauto).
  assert (V2 : Forall (fun t => increasing_sites (snd t)) ts) by (eapply Forall_impl; [|exact HV]; cbn; tauto).
  set (o0 := mkLop S [] [] [] [] c (kbige S c) true).
  destruct (add_operators_distinct S depth hs ts o0 []) as (o & E & Ea & Est & Hz & Ec); auto; [apply terms_nil|unfold nzd_ok, has_nonzero_diagonal; reflexivity|].
  assert (EM : mk_lop S dp hs c ts = Ok o).
  { unfold mk_lop. rewrite (LocalOp_Build.hs_check hs Hs). cbn [negb]. fold o0.
    replace (filter _ ts) with ts; [exact E|]. symmetry. clear - V1.
    induction V1 as [|[m a] l H1 H2 IH]; cbn [filter snd]; auto. destruct H1 as (H1 & _).
    cbn [snd] in *. destruct a; [congruence|]. f_equal; auto. }
  exists o. split; auto. cbn [app] in Ea, Est.
  assert (EC : combine (map fst (chopped S hs (kept S ts))) (lo_act S o) = cut_terms S ts).
  { rewrite Ea. unfold cut_terms. rewrite significant_kept. unfold chopped. rewrite map_map. cbn [fst].
    assert (VK : Forall (valid_term S hs) (kept S ts)).
    { unfold kept. rewrite Forall_forall in *. intros t Ht. apply filter_In in Ht. apply V1. tauto. }
    clear - VK. induction VK as [|t l H1 H2 IH]; cbn [map combine fst snd]; auto. rewrite IH. f_equal.
    destruct t as [m a]. cbn [fst snd] in *. destruct H1 as (_ & _ & _ & Hsq & _). cbn [fst snd] in *.
    unfold cut, chop. rewrite Hsq. reflexivity. }
  assert (HZ : lo_nzd S o = true \/ diag_zero S o).
  { assert (HDg : forall dg, In dg (lo_diag S o) -> exists t, In t (kept S ts) /\
        length dg = local_dim hs (snd t) /\
        forall r, (r < length dg)%nat -> nth r dg (k0 S) = entry S (fst t) r r).
    { unfold stored in Est. rewrite Ea in Est. clear - Est. revert Est.
      generalize (lo_diag S o) (lo_conn S o). induction (kept S ts) as [|t l IH]; intros dgs cns H;
        cbn [map chopped fst snd] in H; inversion H; subst; clear H; intros dg0 Hdg; [destruct Hdg|].
      destruct Hdg as [<-|Hdg].
      - exists t. split; [left; auto|]. match goal with HH : rows_ok _ _ _ _ _ _ |- _ => destruct HH as (G1 & G2 & G3) end. split; auto.
        intros r Hr. rewrite G1 in Hr. destruct (G3 r Hr) as [G4 _]. rewrite G4.
        unfold chop. rewrite mbuild_get by auto. rewrite Nat.eqb_refl. reflexivity.
      - match goal with HH : terms_ok _ _ (map fst _) _ _ _ |- _ => destruct (IH _ _ HH dg0 Hdg) as (t' & I1 & I2) end. exists t'. split; [right; auto|auto]. }
    assert (HDg2 : forall t, In t (kept S ts) -> exists dg, In dg (lo_diag S o) /\ length dg = local_dim hs (snd t) /\
        forall r, (r < length dg)%nat -> nth r dg (k0 S) = entry S (fst t) r r).
    { unfold stored in Est. rewrite Ea in Est. clear - Est. revert Est.
      generalize (lo_diag S o) (lo_conn S o). induction (kept S ts) as [|t l IH]; intros dgs cns H;
        cbn [map chopped fst snd] in H; inversion H; subst; clear H; intros t0 Ht0; [destruct Ht0|].
      destruct Ht0 as [<-|Ht0].
      - exists dg. split; [left; auto|]. match goal with HH : rows_ok _ _ _ _ _ _ |- _ => destruct HH as (G1 & G2 & G3) end. split; auto.
        intros r Hr. rewrite G1 in Hr. destruct (G3 r Hr) as [G4 _]. rewrite G4.
        unfold chop. rewrite mbuild_get by auto. rewrite Nat.eqb_refl. reflexivity.
      - match goal with HH : terms_ok _ _ (map fst _) _ _ _ |- _ => destruct (IH _ _ HH t0 Ht0) as (t' & I1 & I2) end. exists t'. split; [right; auto|auto]. }
    destruct HD as [[HD|(t & i & Ht & Hi & HD)]|[HD1 HD2]].
    - left. rewrite Hz. unfold has_nonzero_diagonal. rewrite Ec. cbn. rewrite HD. apply orb_true_r.
    - left. rewrite Hz. unfold has_nonzero_diagonal. apply orb_true_intro. left.
      rewrite Forall_forall in V1. destruct (V1 t Ht) as (_ & _ & _ & Hsq1 & Hsq2).
      assert (Hin : In (entry S (fst t) i i) (nth i (fst t) [])).
      { unfold entry. apply nth_In. rewrite Forall_forall in Hsq2. rewrite (Hsq2 (nth i (fst t) [])); [|apply nth_In; auto].
        rewrite <- Hsq1. auto. }
      assert (HK : In t (kept S ts)).
      { rewrite <- significant_kept. apply filter_In. split; auto. unfold significant.
        apply existsb_exists. exists (nth i (fst t) []). split; [apply nth_In; auto|].
        apply existsb_exists. exists (entry S (fst t) i i). auto. }
      destruct (HDg2 t HK) as (dg & G1 & G2 & G3). apply existsb_exists. exists dg. split; auto.
      apply existsb_exists. exists (entry S (fst t) i i). split; auto.
      assert (Hl : (i < length dg)%nat) by (rewrite G2; unfold mat in *; rewrite Hsq1 in Hi; exact Hi).
      assert (G5 : In (nth i dg (k0 S)) dg) by (apply nth_In; auto). rewrite (G3 i Hl) in G5. exact G5.
    - right. split; [rewrite Ec; auto|]. intros dg Hdg z Hin.
      destruct (HDg dg Hdg) as (t & G1 & G2 & G3).
      destruct (In_nth _ _ (k0 S) Hin) as (r & Hr & <-). rewrite G3 by auto. apply HD2.
      rewrite <- significant_kept in G1. apply filter_In in G1. tauto. }
  destruct (get_conn_stored S L hs Hs o _ x junk junkx Est HZ Hx) as [(l & G1 & G2)|[G1 G2]];
    rewrite EC, Ec in G2; cbn [lo_const o0] in G2; rewrite G1; [exact G2|split; [reflexivity|exact G2]].
Qed.

(** the flag of the diagonal *)
Lemma diag_zero_element o x : stored S hs o (lo_ops S o) -> diag_zero S o -> configuration hs x ->
  op_element S hs o x x = k0 S.
Proof.
  intros Hst [Hc Hd] Hx. unfold op_element, element, terms_of. rewrite Hc.
  assert (E : sum S (map (fun t => term_element S hs (fst t) (snd t) x x)
                         (combine (lo_ops S o) (lo_act S o))) = k0 S).
  { apply (sum_zero S L). intros [m a] Hin.
    cbn [fst snd]. unfold stored in Hst. revert Hd Hst Hin.
    generalize (lo_ops S o) (lo_act S o) (lo_diag S o) (lo_conn S o).
    intros ops acts dgs cns Hd Hst. induction Hst as [|m' ms act acts dg dgs cn cns H1 H2 H3 IH]; intros Hin; [destruct Hin|].
    destruct Hin as [E|Hin].
    - inversion E; subst. unfold term_element. destruct (same_elsewhere a x x); auto.
      destruct H2 as (G1 & G2 & G3).
      assert (Hlt : (loc_index hs a x < local_dim hs a)%nat) by (apply loc_index_lt; auto; apply H1).
      destruct (G3 _ Hlt) as [G4 _]. change (entry S) with (mget S). rewrite <- G4.
      apply (Hd dg); [left; auto|]. apply nth_In. lia.
    - apply IH; auto. intros dg' Hdg'. apply Hd. right; auto. }
  rewrite E. pose proof (k_ring S L) as R. destruct (zlist_eqb x x); apply (Radd_0_l R).
Qed.

Lemma good_nzd (NS : no_small S) o f x : good S hs o f -> configuration hs x -> f x x <> k0 S ->
  lo_nzd S o = true.
Proof.
  intros (W & Hz & El) Hx Hn. destruct (nzd_cases S L NS o Hz) as [H|H]; auto. exfalso. apply Hn.
  rewrite <- El by auto. apply diag_zero_element; auto. apply (wf_stored _ _ _ W).
Qed.

Lemma expr_flattened (NS : no_small S) e o xs junk junkx :
  valid_expr S hs e -> no_product S e \/ (exists d, uniform_space hs d) ->
  build S dp hs e = Ok o -> Forall (configuration hs) xs ->
  visible S hs (denote S hs e) xs ->
  exists rows,
    Forall2 (fun x row => is_row S hs (denote S hs e x) row) xs rows /\
    get_conn_flattened S hs o false junk junkx xs =
      Ok (concat (map (map snd) rows), concat (map (map fst) rows), ends 0 (map (@length _) rows)) /\
    n_conn S hs o junk junkx xs = Ok (map (@length _) rows).
Proof.
  intros HV HU HB HF HL. pose proof (build_good S L NS depth hs Hs e o HV HU HB) as HG.
  apply (flattened_rows S L NS hs Hs o _ xs junk junkx HG HF).
  destruct HL as [(x & Hx & Hn)|HL]; [|auto]. right. left. eapply good_nzd; eauto.
Qed.

Lemma expr_padded (NS : no_small S) e o xs junk junkx :
  valid_expr S hs e -> no_product S e \/ (exists d, uniform_space hs d) ->
  build S dp hs e = Ok o -> Forall (configuration hs) xs -> xs <> [] ->
  (exists x, configuration hs x /\ denote S hs e x x <> k0 S) \/
  (exists x y, In x xs /\ configuration hs y /\ denote S hs e x y <> k0 S) ->
  exists rows, let w := list_max (map (@length _) rows) in
    Forall2 (fun x row => is_row S hs (denote S hs e x) row) xs rows /\
    get_conn_padded S hs o junk junkx xs =
      Ok (map (fun p => map fst (snd p) ++ repeat (fst p) (w - length (snd p))) (combine xs rows),
          map (fun row => map snd row ++ repeat (k0 S) (w - length row)) rows).
Proof.
  intros HV HU HB HF Hne HL. pose proof (build_good S L NS depth hs Hs e o HV HU HB) as HG.
  apply (padded_rows S L NS hs Hs o _ xs junk junkx HG HF Hne).
  destruct HL as [(x & Hx & Hn)|HL]; [left; eapply good_nzd; eauto|auto].
Qed.

Lemma expr_max_conn (NS : no_small S) e o xs junk junkx c :
  valid_expr S hs e -> no_product S e \/ (exists d, uniform_space hs d) -> no_rescaling S e ->
  build S dp hs e = Ok o -> lo_ops S o <> [] -> Forall (configuration hs) xs ->
  n_conn S hs o junk junkx xs = Ok c -> Forall (fun n => n <= max_conn_size S o)%nat c.
Proof.
  intros HV HU HR HB Hne HF. pose proof (build_good S L NS depth hs Hs e o HV HU HB) as HG.
  pose proof (build_tight S depth hs e o HR HB) as HT.
  apply (max_conn_rows S L NS hs Hs o _ xs junk junkx c HG HT); auto.
Qed.

(** hermiticity *)
Lemma expr_hermitian (NS : no_small S) e o : close_exact S ->
  valid_expr S hs e -> no_product S e \/ (exists d, uniform_space hs d) -> real_scalars S e ->
  build S dp hs e = Ok o -> lo_herm S o = true ->
  forall x y, configuration hs x -> configuration hs y ->
    denote S hs e x y = kconj S (denote S hs e y x).
Proof.
  intros HC HV HU HR HB Hh x y Hx Hy.
  pose proof (build_good S L NS depth hs Hs e o HV HU HB) as (W & _ & El).
  destruct (build_herm S L NS depth hs Hs e HC o HV HU HR HB) as [H1 H2].
  rewrite <- !El by auto.
  apply (herm_element S L hs o HC W H1 Hh H2 x y Hx Hy).
Qed.

Lemma expr_dagger (NS : no_small S) e o x junk junkx : close_exact S ->
  valid_expr S hs e -> no_product S e \/ (exists d, uniform_space hs d) -> real_scalars S e ->
  build S dp hs e = Ok o -> configuration hs x ->
  exists o', dagger S dp hs o = Ok o' /\
    row_or_fault S hs (fun y => kconj S (denote S hs e y x)) (get_conn S hs o' junk junkx x).
Proof.
  intros HC HV HU HR HB Hx.
  pose proof (build_good S L NS depth hs Hs e o HV HU HB) as (W & Hz & El).
  assert (G : exists o', dagger S dp hs o = Ok o' /\ good S hs o' (fun x y => kconj S (denote S hs e y x))).
  { unfold dagger. destruct (lo_herm S o) eqn:E.
    - exists o. split; auto. split; auto. split; auto. intros a b Ha Hb.
      rewrite El by auto. eapply expr_hermitian; eauto.
    - destruct (transpose_ok S L depth hs Hs NS o W) as (t & Et & Wt & _ & Elt). rewrite Et. cbn [bind].
      destruct (conjugate_ok S L depth hs Hs NS t Wt) as (c & Ec & Wc & Hzc & Elc). exists c. split; auto.
      split; auto. split; auto. intros a b Ha Hb. rewrite Elc, Elt, El by auto. auto. }
  destruct G as (o' & E & G). exists o'. split; auto.
  exact (good_row S L NS hs Hs o' _ x junk junkx G Hx).
Qed.

(** A @= A *)
Lemma expr_self_product (NS : no_small S) e o o' x junk junkx :
  valid_expr S hs e -> (exists d, uniform_space hs d) -> build S dp hs e = Ok o ->
  lo_const S o = k0 S -> imatmul_self S dp hs o = Ok o' -> configuration hs x ->
  row_or_fault S hs (denote S hs (Matmul S e e) x) (get_conn S hs o' junk junkx x).
Proof.
  intros HV HU HB Hc Hi Hx.
  pose proof (build_good S L NS depth hs Hs e o HV (or_intror HU) HB) as (W & Hz & El).
  destruct HU as (d & Hd & Hu).
  destruct (imatmul_self_ok S L hs Hs d Hd Hu depth NS o o' Hc W Hi) as (W' & Hz' & El').
  assert (G : good S hs o' (denote S hs (Matmul S e e))).
  { split; auto. split; auto. intros a b Ha Hb. rewrite El' by auto. apply (comp_ext S hs); auto. }
  exact (good_row S L NS hs Hs o' _ x junk junkx G Hx).
Qed.

End F.

(** to_sparse *)
Lemma expr_to_sparse S depth h e o L junk junkx :
  scalar_laws S -> no_small S -> sane h -> free h -> flippable h -> all_states h = Ok L ->
  let hs := site_states h in
  valid_expr S hs e -> no_product S e \/ (exists d, uniform_space hs d) ->
  build S (Datatypes.S depth) hs e = Ok o ->
  visible S hs (denote S hs e) L ->
  exists m, to_sparse S h (get_conn_flattened S hs o false junk junkx) = Ok m /\
    cs_n S m = Z.of_nat (length L) /\
    forall i j, (i < length L)%nat -> (j < length L)%nat ->
      csr_entry S m i (Z.of_nat j) = denote S hs e (nth i L []) (nth j L []).
Proof.
  intros LS NS Hsane Hfree Hflip HL hs HV HU HB Hvis.
  pose proof (site_states_sorted h Hflip) as Hs. fold hs in Hs.
  destruct (all_states_spec h Hsane) as (L' & HL' & _ & HIn & _). rewrite HL in HL'. inversion HL'; subst L'.
  assert (HF : Forall (configuration hs) L).
  { apply Forall_forall. intros x Hx. apply config_sites. apply HIn. auto. }
  destruct (expr_flattened S LS depth hs Hs NS e o L junk junkx HV HU HB HF Hvis) as (rows & HR & HE & _).
  assert (Hlen : length rows = length L) by (symmetry; eapply Forall2_length; eauto).
  destruct (to_sparse_ok S h L _ rows Hsane HL HE Hlen) as (m & Em & En & Ent).
  { intros row p Hrow Hp. apply sites_config; auto.
    clear - HR Hrow Hp. induction HR as [|x r xs rows [H1 _] H2 IH]; [destruct Hrow|].
    destruct Hrow as [->|Hrow]; auto. }
  exists m. split; auto. split; auto. intros i j Hi Hj. rewrite Ent by auto.
  assert (G : is_row S hs (denote S hs e (nth i L [])) (nth i rows [])).
  { clear - HR Hi. revert i Hi. induction HR as [|x r xs rows H1 H2 IH]; intros i Hi; [simpl in Hi; lia|].
    destruct i; [exact H1|]. cbn [nth]. apply IH. simpl in Hi. lia. }
  destruct G as [_ G]. apply G. rewrite Forall_forall in HF. apply HF. apply nth_In. auto.
Qed.
