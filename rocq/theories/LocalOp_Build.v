(** * Construction of LocalOperators: what the stored arrays mean *)
From Coq Require Import ZArith List Bool Lia Permutation Sorting.Sorted Ring.
From Verif Require Import Base BaseFacts Hilbert_Model HilbertOps_Model Scalar
  LocalOp_Model LocalOp_Spec LocalOp_Facts LocalOp_Kernel LocalOp_Reorder.
Import ListNotations.

Section Build.
Variable S : scalars.
Hypothesis L : scalar_laws S.
Notation K := (K S).
Notation "0" := (k0 S).
Notation "1" := (k1 S).
Infix "+" := (kadd S).
Infix "*" := (kmul S).
Add Ring Kring : (k_ring S L).

(** ** one term *)
Definition rows_ok (hs : list (list Z)) (m : mat S) (act : list nat) (dg : list K)
  (cn : list (list (K * list Z))) : Prop :=
  length dg = local_dim hs act /\ length cn = local_dim hs act /\
  forall r, (r < local_dim hs act)%nat ->
    nth r dg 0 = mget S m r r /\
    exists J, NoDup J /\ ~ In r J /\ (forall j, In j J -> (j < local_dim hs act)%nat) /\
      nth r cn [] = map (fun j => (mget S m r j, mword (lss_of hs act) j)) J /\
      forall j, (j < local_dim hs act)%nat -> j <> r -> ~ In j J -> mget S m r j = 0.

Definition term_pairs (x : list Z) (act : list nat) (row : list (K * list Z)) : list (list Z * K) :=
  map (fun p => (put_sites x act (snd p), fst p)) row.

Lemma term_weight hs m act dg cn x y :
  sorted_space hs -> sites_ok hs act -> rows_ok hs m act dg cn ->
  configuration hs x -> configuration hs y ->
  weight S (term_pairs x act (nth (loc_index hs act x) cn [])) y +
  (if zlist_eqb x y then nth (loc_index hs act x) dg 0 else 0)
  = term_element S hs m act x y.
Proof.
  intros Hs Ha (_ & _ & HR) Hx Hy. destruct (HR (loc_index hs act x)) as (Hd & J & HN & Hr & HJ & Hc & Hz).
  { apply loc_index_lt; auto. apply Ha. }
  rewrite Hd, Hc. unfold term_pairs. rewrite map_map. unfold weight. rewrite map_map. cbn [fst snd].
  unfold term_element. change (entry S) with (mget S).
  set (r := loc_index hs act x) in *.
  change (fun x0 => if zlist_eqb (put_sites x act (mword (lss_of hs act) x0)) y then mget S m r x0 else 0)
    with (fun j => if zlist_eqb (move hs act x j) y then mget S m r j else 0).
  destruct (same_elsewhere act x y) eqn:E.
  - assert (Hmv : forall j, In j J -> (zlist_eqb (move hs act x j) y = true <-> j = loc_index hs act y)).
    { intros j Hj. rewrite zlist_eqb_eq. split.
      - intros <-. symmetry. apply move_index; auto.
      - intros ->. apply move_back; auto. }
    destruct (zlist_eqb x y) eqn:Exy.
    + apply zlist_eqb_eq in Exy. subst y. fold r in Hmv |- *.
      rewrite (sum_zero S L); [ring|]. intros j Hj.
      destruct (zlist_eqb (move hs act x j) x) eqn:Ej; auto. apply Hmv in Ej; auto; subst; tauto.
    + assert (Hne : loc_index hs act y <> r).
      { intros C. apply zlist_eqb_false in Exy. apply Exy. eapply index_inj; eauto. }
      set (q := loc_index hs act y) in *.
      assert (Hq : (q < local_dim hs act)%nat) by (apply loc_index_lt; auto; apply Ha).
      destruct (in_dec Nat.eq_dec q J) as [Hin|Hout].
      * rewrite (sum_single S L Nat.eq_dec _ J q); auto.
        -- replace (zlist_eqb (move hs act x q) y) with true by (symmetry; apply Hmv; auto). ring.
        -- intros j Hj Hjq. destruct (zlist_eqb (move hs act x j) y) eqn:Ej; auto.
           apply Hmv in Ej; auto; congruence.
      * rewrite (sum_zero S L).
        -- rewrite Hz; auto. ring.
        -- intros j Hj. destruct (zlist_eqb (move hs act x j) y) eqn:Ej; auto.
           apply Hmv in Ej; auto; subst; tauto.
  - rewrite (sum_zero S L).
    + destruct (zlist_eqb x y) eqn:Exy; [|ring]. apply zlist_eqb_eq in Exy. subst.
      rewrite same_elsewhere_refl in E. discriminate.
    + intros j Hj. destruct (zlist_eqb (move hs act x j) y) eqn:Ej; auto.
      apply zlist_eqb_eq in Ej. subst. rewrite move_same in E. discriminate.
Qed.

Lemma term_configs hs m act dg cn x :
  sites_ok hs act -> rows_ok hs m act dg cn -> configuration hs x ->
  forall p, In p (term_pairs x act (nth (loc_index hs act x) cn [])) -> configuration hs (fst p).
Proof.
  intros Ha (_ & _ & HR) Hx p Hp. destruct (HR (loc_index hs act x)) as (Hd & J & HN & Hr & HJ & Hc & Hz).
  { apply loc_index_lt; auto. apply Ha. }
  rewrite Hc in Hp. unfold term_pairs in Hp. rewrite map_map in Hp. apply in_map_iff in Hp.
  destruct Hp as (j & <- & Hj). cbn [fst snd].
  apply put_sites_config; auto. apply mword_is. rewrite <- local_dim_mdim. auto.
Qed.

(** ** all terms *)
Inductive terms_ok (hs : list (list Z)) : list (mat S) -> list (list nat) ->
  list (list K) -> list (list (list (K * list Z))) -> Prop :=
| terms_nil : terms_ok hs [] [] [] []
| terms_cons m ms act acts dg dgs cn cns :
    sites_ok hs act -> rows_ok hs m act dg cn -> terms_ok hs ms acts dgs cns ->
    terms_ok hs (m :: ms) (act :: acts) (dg :: dgs) (cn :: cns).

Definition terms_sum (hs : list (list Z)) (terms : list (mat S * list nat)) (x y : list Z) : K :=
  sum S (map (fun t => term_element S hs (fst t) (snd t) x y) terms).

Lemma terms_picked hs ms acts dgs cns x :
  sorted_space hs -> terms_ok hs ms acts dgs cns -> configuration hs x ->
  exists ps,
    picked S acts dgs cns (map (fun act => xs_index (lss_of hs act) (x_sites x act)) acts) ps /\
    (forall p, In p (off_pairs S x acts ps) -> configuration hs (fst p)) /\
    (forall y, configuration hs y ->
       weight S (off_pairs S x acts ps) y + (if zlist_eqb x y then sum S (map fst ps) else 0)
       = terms_sum hs (combine ms acts) x y) /\
    (forall z, In z (map fst ps) -> exists dg, In dg dgs /\ In z dg).
Proof.
  intros Hs HT Hx. induction HT as [|m ms act acts dg dgs cn cns Ha HR HT IH].
  - exists []. split; [constructor|]. split; [simpl; tauto|]. split; [|simpl; tauto].
    intros y Hy. unfold weight, off_pairs, terms_sum, sum; simpl. destruct (zlist_eqb x y); ring.
  - destruct IH as (ps & HP & HC & HW & HD).
    set (r := loc_index hs act x).
    assert (Er : xs_index (lss_of hs act) (x_sites x act) = r).
    { unfold r. rewrite loc_index_mrank. apply xs_index_mrank.
      - apply lss_sorted; auto. apply Ha.
      - apply x_sites_mword; auto. apply Ha. }
    assert (Hr : (r < local_dim hs act)%nat) by (apply loc_index_lt; auto; apply Ha).
    exists ((nth r dg 0, nth r cn []) :: ps). destruct HR as (L1 & L2 & HR).
    split; [|split; [|split]].
    + cbn [map]. rewrite Er. constructor; auto; congruence.
    + unfold off_pairs. cbn [combine map concat fst snd]. intros p Hp. apply in_app_iff in Hp.
      destruct Hp as [Hp|Hp]; [|apply HC; auto].
      eapply (term_configs hs m act dg cn x); eauto. split; auto.
    + intros y Hy. unfold off_pairs. cbn [combine map concat fst snd].
      fold (off_pairs S x acts ps). rewrite (weight_app S L).
      change (map (fun p => (put_sites x act (snd p), fst p)) (nth r cn []))
        with (term_pairs x act (nth r cn [])).
      unfold terms_sum. cbn [combine map fst snd]. cbn [sum fold_right].
      change (fold_right (kadd S) 0 (map (fun t => term_element S hs (fst t) (snd t) x y) (combine ms acts)))
        with (terms_sum hs (combine ms acts) x y).
      rewrite <- HW by auto.
      rewrite <- (term_weight hs m act dg cn x y) by (auto; split; auto). fold r.
      change (fold_right (kadd S) 0 (map fst ps)) with (sum S (map fst ps)).
      destruct (zlist_eqb x y); unfold sum; cbn [map fold_right]; ring.
    + cbn [map fst]. intros z [<-|Hz].
      * exists dg. split; [simpl; auto|]. apply nth_In. congruence.
      * destruct (HD z Hz) as (dg' & H1 & H2). exists dg'. simpl; auto.
Qed.

(** ** the kernel result for stored arrays [ms] *)
Definition stored (hs : list (list Z)) (o : lop S) (ms : list (mat S)) : Prop :=
  terms_ok hs ms (lo_act S o) (lo_diag S o) (lo_conn S o).

Definition diag_zero (o : lop S) : Prop :=
  lo_const S o = 0 /\ forall dg, In dg (lo_diag S o) -> forall z, In z dg -> z = 0.

Lemma row_spec hs o ms x :
  sorted_space hs -> stored hs o ms -> configuration hs x ->
  lo_nzd S o = true \/ diag_zero o ->
  exists ps, row_ok S hs o x ps /\
    let l := combine (row_xs S o x ps) (row_mels S o ps) in
    (forall p, In p l -> configuration hs (fst p)) /\
    forall y, configuration hs y ->
      weight S l y = element S hs (lo_const S o) (combine ms (lo_act S o)) x y.
Proof.
  intros Hs HT Hx Hz. destruct (terms_picked hs _ _ _ _ x Hs HT Hx) as (ps & HP & HC & HW & HD).
  exists ps. split; [exact HP|]. cbv zeta.
  assert (Hz' : lo_nzd S o = true \/ (lo_const S o = 0 /\ Forall (fun p => fst p = 0) ps)).
  { destruct Hz as [Hz|[H1 H2]]; [auto|]. right. split; auto. apply Forall_forall. intros p Hp.
    destruct (HD (fst p)) as (dg & G1 & G2); [apply in_map; auto|]. eapply H2; eauto. }
  rewrite (row_pairs S L hs o x ps HP Hz').
  split.
  - intros p Hp. apply in_app_iff in Hp. destruct Hp as [Hp|Hp]; [|apply HC; auto].
    destruct (lo_nzd S o); [|simpl in Hp; tauto]. destruct Hp as [<-|[]]. auto.
  - intros y Hy. rewrite (weight_app S L). unfold element.
    fold (terms_sum hs (combine ms (lo_act S o)) x y). rewrite <- HW by auto.
    destruct (lo_nzd S o) eqn:En.
    + unfold weight at 1. cbn [map fst snd]. unfold sum at 1. cbn [fold_right].
      destruct (zlist_eqb x y); ring.
    + destruct Hz' as [Hz'|[Hc Hps]]; [discriminate|].
      assert (Es : sum S (map fst ps) = 0).
      { apply (sum_zero S L). intros p Hp. rewrite Forall_forall in Hps. auto. }
      rewrite Es, Hc. unfold weight at 1. cbn [map]. unfold sum at 1. cbn [fold_right].
      destruct (zlist_eqb x y); ring.
Qed.

(** ** matrices: entries *)
Definition chop (d : nat) (m : mat S) : mat S :=
  mbuild S d d (fun i j => if Nat.eqb i j || kbig S (mget S m i j) then mget S m i j else 0).

Lemma chop_id d m : no_small S -> square S m d -> chop d m = m.
Proof.
  intros NS Hm. apply (square_ext S) with (d := d); auto; [apply mbuild_square|].
  intros i j Hi Hj. unfold chop. rewrite mbuild_get by auto.
  destruct (Nat.eqb i j); simpl; auto. destruct (kbig S (mget S m i j)) eqn:E; auto.
  symmetry. apply NS; auto.
Qed.

Lemma sequence_map_ok {A B} (f : A -> res B) l :
  (forall a, In a l -> exists b, f a = Ok b) -> exists bs, sequence (map f l) = Ok bs.
Proof.
  induction l; simpl; intros H; [eauto|]. destruct (H a) as [b Hb]; auto. rewrite Hb. simpl.
  destruct IHl as [bs Hbs]; auto. rewrite Hbs. simpl. eauto.
Qed.

Lemma append_matrix_ok hs m act :
  square S m (local_dim hs act) ->
  exists dc, append_matrix S m (lss_of hs act) = Ok dc /\
    rows_ok hs (chop (local_dim hs act) m) act (fst dc) (snd dc) /\
    fst dc = map (fun i => mget S m i i) (seq 0 (local_dim hs act)).
Proof.
  intros Hm. set (D := local_dim hs act) in *. unfold append_matrix.
  rewrite (square_nrows S m D Hm).
  assert (Ec : ncols S m = D).
  { destruct (Nat.eq_dec D 0) as [E|E].
    - destruct Hm as [H1 H2]. rewrite E in *. destruct m; [reflexivity|discriminate].
    - apply square_ncols; auto. lia. }
  rewrite Ec, Nat.eqb_refl. cbn [negb].
  set (J := fun i => filter (fun j => negb (Nat.eqb i j) && kbig S (mget S m i j)) (seq 0 D)).
  rewrite (sequence_ok _ (fun i => map (fun j => (mget S m i j, mword (lss_of hs act) j)) (J i))).
  2:{ intros i Hi. unfold append_row. rewrite (square_nrows S m D Hm). fold (J i).
      apply sequence_ok. intros j Hj. unfold J in Hj. apply filter_In in Hj. destruct Hj as [Hj _].
      apply in_seq in Hj. rewrite number_to_state_mword; auto.
      rewrite <- local_dim_mdim. fold D. lia. }
  cbn [bind]. eexists. split; [reflexivity|]. cbn [fst snd]. split; [|reflexivity].
  split; [rewrite map_length, seq_length; auto|].
  split; [rewrite map_length, seq_length; auto|].
  fold D. intros r Hr. split.
  - rewrite nth_indep with (d' := mget S m 0%nat 0%nat) by (rewrite map_length, seq_length; auto).
    rewrite (map_nth (fun i => mget S m i i)). rewrite seq_nth by auto.
    unfold chop. rewrite mbuild_get by auto. rewrite Nat.eqb_refl. auto.
  - exists (J r). split; [apply NoDup_filter, seq_NoDup|]. split.
    { unfold J. rewrite filter_In. rewrite Nat.eqb_refl. simpl. intros [_ C]; discriminate. }
    split.
    { intros j Hj. unfold J in Hj. apply filter_In in Hj. destruct Hj as [Hj _]. apply in_seq in Hj. lia. }
    split.
    + rewrite nth_indep with (d' := map (fun j => (mget S m 0%nat j, mword (lss_of hs act) j)) (J 0%nat))
        by (rewrite map_length, seq_length; auto).
      rewrite (map_nth (fun i => map (fun j => (mget S m i j, mword (lss_of hs act) j)) (J i))).
      rewrite seq_nth by auto. cbn [Nat.add]. apply map_ext_in. intros j Hj.
      unfold J in Hj. apply filter_In in Hj. destruct Hj as [Hj Hb]. apply in_seq in Hj.
      apply andb_true_iff in Hb. destruct Hb as [_ Hb].
      unfold chop. rewrite mbuild_get by lia. rewrite Hb, orb_true_r. auto.
    + intros j Hj Hjr Hn. unfold chop. rewrite mbuild_get by auto.
      destruct (Nat.eqb_spec r j); [congruence|]. simpl.
      destruct (kbig S (mget S m r j)) eqn:E; auto. exfalso. apply Hn. unfold J.
      apply filter_In. split; [apply in_seq; lia|]. rewrite E.
      destruct (Nat.eqb_spec r j); [congruence|auto].
Qed.

(** ** well-formed operators over a domain without small numbers *)
Definition good_term (hs : list (list Z)) (m : mat S) (act : list nat) : Prop :=
  act <> [] /\ sites_ok hs act /\ increasing_sites act /\ square S m (local_dim hs act).

Record wf (hs : list (list Z)) (o : lop S) : Prop := {
  wf_terms : Forall2 (good_term hs) (lo_ops S o) (lo_act S o);
  wf_stored : stored hs o (lo_ops S o)
}.
Definition nzd_ok (o : lop S) : Prop := lo_nzd S o = has_nonzero_diagonal S o.

Definition op_element (hs : list (list Z)) (o : lop S) (x y : list Z) : K :=
  element S hs (lo_const S o) (terms_of S o) x y.

(** operators that store a support once *)
Lemma find_support_spec l act i k : find_support l act i = Some k ->
  (i <= k)%nat /\ (k - i < length l)%nat /\ nth (k - i) l [] = act.
Proof.
  revert i. induction l as [|s l IH]; intros i H; simpl in H; [discriminate|].
  destruct (natlist_eqb act s) eqn:E.
  - inversion H; subst. rewrite Nat.sub_diag. apply natlist_eqb_eq in E. subst. simpl. split; auto. split; [lia|auto].
  - apply IH in H. destruct H as (H1 & H2 & H3). split; [lia|].
    replace (k - i)%nat with (Datatypes.S (k - Datatypes.S i)) by lia. simpl. split; [lia|auto].
Qed.

Lemma terms_ok_upd hs ms acts dgs cns i m dg cn :
  terms_ok hs ms acts dgs cns -> rows_ok hs m (nth i acts []) dg cn ->
  terms_ok hs (upd ms i m) acts (upd dgs i dg) (upd cns i cn).
Proof.
  intros H. revert i. induction H; intros i HR; simpl.
  - constructor.
  - destruct i; simpl in *; constructor; auto.
Qed.

Lemma terms_ok_snoc hs ms acts dgs cns m act dg cn :
  terms_ok hs ms acts dgs cns -> sites_ok hs act -> rows_ok hs m act dg cn ->
  terms_ok hs (ms ++ [m]) (acts ++ [act]) (dgs ++ [dg]) (cns ++ [cn]).
Proof.
  induction 1; intros; simpl; apply terms_cons; auto. apply terms_nil.
Qed.

Lemma terms_sum_upd hs ms acts i m t x y :
  length ms = length acts -> (i < length acts)%nat ->
  term_element S hs m (nth i acts []) x y = term_element S hs (nth i ms []) (nth i acts []) x y + t ->
  terms_sum hs (combine (upd ms i m) acts) x y = terms_sum hs (combine ms acts) x y + t.
Proof.
  revert acts i. unfold terms_sum. induction ms as [|m0 ms IH]; intros acts i HL Hi E;
    destruct acts as [|a acts]; simpl in *; try lia.
  destruct i; simpl in *.
  - unfold sum in *. cbn [map fold_right fst snd]. rewrite E. ring.
  - unfold sum in *. cbn [map fold_right fst snd]. rewrite (IH acts i) by (auto; lia). ring.
Qed.

Lemma terms_sum_app hs a b x y :
  terms_sum hs (a ++ b) x y = terms_sum hs a x y + terms_sum hs b x y.
Proof. unfold terms_sum. rewrite map_app. apply (sum_app S L). Qed.

Lemma add_block_get m op D i j : square S m D -> square S op D ->
  (i < D)%nat -> (j < D)%nat ->
  mget S (add_block S m op) i j = mget S m i j + mget S op i j.
Proof.
  intros Hm Ho Hi Hj. unfold add_block.
  rewrite (square_nrows S m D Hm), (square_nrows S op D Ho), (square_ncols S m D Hm) by lia.
  rewrite mbuild_get by auto. rewrite Nat.min_id.
  destruct (Nat.ltb_spec i D); [|lia]. destruct (Nat.ltb_spec j D); [|lia]. auto.
Qed.

Lemma add_block_square m op D : square S m D -> (0 < D)%nat -> square S (add_block S m op) D.
Proof.
  intros Hm HD. unfold add_block. rewrite (square_nrows S m D Hm), (square_ncols S m D Hm) by lia.
  apply mbuild_square.
Qed.

Lemma all_small_zero (m : mat S) : no_small S ->
  forallb (forallb (fun k => negb (kbige S k))) m = true -> forall i j, mget S m i j = 0.
Proof.
  intros NS H i j. unfold mget. rewrite forallb_forall in H.
  destruct (Nat.ltb_spec i (length m)); [|rewrite (nth_overflow m) by auto; destruct j; auto].
  assert (HI : In (nth i m []) m) by (apply nth_In; auto). apply H in HI.
  rewrite forallb_forall in HI.
  destruct (Nat.ltb_spec j (length (nth i m []))); [|apply nth_overflow; auto].
  assert (HJ : In (nth j (nth i m []) 0) (nth i m [])) by (apply nth_In; auto).
  apply HI in HJ. apply negb_true_iff in HJ. apply NS.
  destruct (kbig S (nth j (nth i m []) 0)) eqn:E; auto. apply (k_big_bige S L) in E. congruence.
Qed.

(** sites may be listed in any order if all have the same local dimension *)
Definition order_ok (hs : list (list Z)) (act : list nat) : Prop :=
  increasing_sites act \/ exists d, forall s, In s act -> length (nth s hs []) = d.

Lemma ou_order hs act : ordered_or_uniform hs act -> order_ok hs act.
Proof. intros [H|(d & _ & H & _)]; [left; auto|right; eauto]. Qed.

Section Add.
Variable depth : nat.
Notation dp := (Datatypes.S depth).
Variable hs : list (list Z).
Hypothesis Hs : sorted_space hs.

Definition term_same (m : mat S) (act : list nat) (m' : mat S) (act' : list nat) : Prop :=
  forall x y, configuration hs x -> configuration hs y ->
    term_element S hs m' act' x y = term_element S hs m act x y.

Lemma reorder_term m act :
  valid_term S hs (m, act) -> ordered_or_uniform hs act ->
  exists m' act', reorder S dp hs m act = Ok (m', act') /\ good_term hs m' act' /\
    (forall s, In s act' <-> In s act) /\ term_same m act m' act'.
Proof.
  intros (Hne & HN & HI & Hsq) [Hinc|(d & Hd & Hu & Hb)]; cbn [fst snd] in *.
  - exists m, act. rewrite reorder_sorted by auto. split; auto.
    split; [|split; [tauto|intros x y _ _; auto]].
    split; auto. split; [split; auto|]. split; auto.
  - destruct (reorder_correct S depth hs m act d) as (m' & HR & Hsq' & HE); auto; [split; auto|].
    exists m', (sort_sites act). split; auto. split; [|split].
    + split; [|split; [|split]].
      * intros C. assert (length (sort_sites act) = 0%nat) by (rewrite C; auto).
        rewrite sort_sites_length in H. destruct act; simpl in *; congruence.
      * split.
        -- eapply Permutation_NoDup; [apply sort_sites_perm|auto].
        -- intros s H. rewrite sort_sites_in in H. auto.
      * apply sort_sites_sorted; auto.
      * rewrite <- (local_dim_perm hs act (sort_sites act)) by apply sort_sites_perm. auto.
    + apply sort_sites_in.
    + intros x y Hx Hy. unfold term_element.
      rewrite (same_elsewhere_ext (sort_sites act) act x y (sort_sites_in act)).
      destruct (same_elsewhere act x y); auto.
Qed.

(** a successful reordering means that the sites were ordered or few *)
Lemma reorder_ok_ordered m act r :
  valid_term S hs (m, act) -> order_ok hs act -> local_dim hs act <> 0%nat ->
  reorder S dp hs m act = Ok r -> ordered_or_uniform hs act.
Proof.
  intros (Hne & HN & HI & Hsq) [Hinc|(d & Hu)] HD HR; cbn [fst snd] in *; [left; auto|].
  assert (Hd : (0 < d)%nat).
  { destruct act as [|s act]; [congruence|]. rewrite <- (Hu s) by (simpl; auto).
    unfold local_dim in HD. simpl in HD. destruct (length (nth s hs [])); [simpl in HD; lia|lia]. }
  destruct (reorder_too_large S depth hs m act d r) as [[_ E]|E]; auto.
  - left. unfold increasing_sites. rewrite <- E. apply sort_sites_sorted; auto.
  - right. exists d. auto.
Qed.

Lemma wf_lengths o : wf hs o -> length (lo_ops S o) = length (lo_act S o).
Proof. intros H. eapply Forall2_length. apply H. Qed.

Hypothesis NS : no_small S.

Lemma Forall2_upd_l {A B} (R : A -> B -> Prop) l l' i v d :
  Forall2 R l l' -> ((i < length l)%nat -> R v (nth i l' d)) -> Forall2 R (upd l i v) l'.
Proof.
  intros H. revert i. induction H; intros i Hv; simpl; [constructor|].
  destruct i; constructor; auto; simpl in *.
  - apply Hv. lia.
  - apply IHForall2. intros; apply Hv. lia.
Qed.

Lemma add_operator_ok o m act o' :
  wf hs o -> valid_term S hs (m, act) -> order_ok hs act ->
  add_operator S dp hs o m act = Ok o' ->
  wf hs o' /\ (nzd_ok o -> nzd_ok o') /\ lo_const S o' = lo_const S o /\
  forall x y, configuration hs x -> configuration hs y ->
    terms_sum hs (terms_of S o') x y = terms_sum hs (terms_of S o) x y + term_element S hs m act x y.
Proof.
  intros W HV HO H. pose proof HV as (Hne & HN & HI & Hsq). cbn [fst snd] in *.
  unfold add_operator in H.
  destruct (negb (nodupb act)); [discriminate|].
  destruct (existsb (fun s => (length hs <=? s)%nat) act); [discriminate|].
  destruct (forallb (forallb (fun k => negb (kbige S k))) m) eqn:Esmall.
  { inversion H; subst. split; auto. split; auto. split; auto. intros x y Hx Hy.
    assert (E : term_element S hs m act x y = 0).
    { unfold term_element. change (entry S) with (mget S). rewrite (all_small_zero m) by auto.
      destruct (same_elsewhere act x y); auto. }
    rewrite E. ring. }
  assert (HD : local_dim hs act <> 0%nat).
  { intros C. rewrite C in Hsq. destruct Hsq as [HL _]. destruct m; [|discriminate].
    simpl in Esmall. discriminate. }
  destruct (reorder S dp hs m act) as [r|e] eqn:ER; [|discriminate].
  pose proof (reorder_ok_ordered m act r HV HO HD ER) as HOU.
  destruct (reorder_term m act HV HOU) as (m' & act' & ER' & HG & HS & HT).
  rewrite ER' in ER. inversion ER; subst r. clear ER. cbn [bind fst snd] in H.
  destruct HG as (Hne' & Hok' & Hinc' & Hsq').
  assert (HD' : (0 < local_dim hs act')%nat).
  { assert (Permutation act act').
    { apply NoDup_Permutation; auto; [apply Hok'|]. intros; symmetry; apply HS. }
    rewrite <- (local_dim_perm hs act act'); auto. lia. }
  destruct W as [W1 W2].
  assert (HL : length (lo_ops S o) = length (lo_act S o)) by (eapply Forall2_length; eauto).
  destruct (find_support (lo_act S o) act' 0) as [i|] eqn:EF.
  - apply find_support_spec in EF. rewrite Nat.sub_0_r in EF. destruct EF as (_ & Hi & Ei).
    set (m0 := nth i (lo_ops S o) []) in *.
    assert (G0 : good_term hs m0 act').
    { rewrite <- Ei. unfold m0. eapply (Forall2_nth' _ _ _ [] [] i) in W1; [exact W1|unfold mat in *; lia]. }
    destruct G0 as (_ & _ & _ & Hsq0).
    pose proof (add_block_square m0 m' _ Hsq0 HD') as Hsq1.
    destruct (append_matrix_ok hs (add_block S m0 m') act' Hsq1) as (dc & EA & HR & _).
    rewrite EA in H. cbn [bind] in H. inversion H; subst o'. clear H.
    rewrite chop_id in HR by auto.
    split; [|split; [|split]].
    + constructor; cbn [lo_ops lo_act set_nzd].
      * eapply Forall2_upd_l with (d := []); eauto. intros _. rewrite Ei. repeat split; auto; apply Hok' || apply Hsq1.
      * unfold stored. cbn [lo_ops lo_act lo_diag lo_conn set_nzd].
        apply terms_ok_upd; auto. rewrite Ei. auto.
    + intros _. unfold nzd_ok. reflexivity.
    + reflexivity.
    + intros x y Hx Hy. unfold terms_of. cbn [lo_ops lo_act set_nzd].
      apply terms_sum_upd; auto. rewrite Ei. fold m0. rewrite <- (HT x y) by auto.
      unfold term_element. destruct (same_elsewhere act' x y); [|ring].
      change (entry S) with (mget S). apply add_block_get with (D := local_dim hs act'); auto;
        apply loc_index_lt; auto; apply Hok'.
  - rewrite (square_nrows S m' _ Hsq') in H.
    replace (nprod (map (@length Z) (lss_of hs act'))) with (local_dim hs act') in H
      by (rewrite local_dim_mdim; reflexivity).
    rewrite Nat.eqb_refl in H. cbn [negb] in H.
    destruct (append_matrix_ok hs m' act' Hsq') as (dc & EA & HR & _).
    rewrite EA in H. cbn [bind] in H. inversion H; subst o'. clear H.
    rewrite chop_id in HR by auto.
    split; [|split; [|split]].
    + constructor; cbn [lo_ops lo_act set_nzd].
      * apply Forall2_app; auto. constructor; auto. repeat split; auto; apply Hok' || apply Hsq'.
      * unfold stored. cbn [lo_ops lo_act lo_diag lo_conn set_nzd]. apply terms_ok_snoc; auto.
    + intros _. reflexivity.
    + reflexivity.
    + intros x y Hx Hy. unfold terms_of. cbn [lo_ops lo_act set_nzd].
      rewrite combine_app' by auto. rewrite terms_sum_app. f_equal.
      unfold terms_sum, sum. cbn [combine map fold_right fst snd]. rewrite (HT x y) by auto. ring.
Qed.

(** ... and it succeeds when the enumeration is possible *)
Lemma add_operator_total o m act :
  wf hs o -> valid_term S hs (m, act) -> ordered_or_uniform hs act ->
  exists o', add_operator S dp hs o m act = Ok o'.
Proof.
  intros W HV HO. pose proof HV as (Hne & HN & HI & Hsq). cbn [fst snd] in *.
  unfold add_operator.
  replace (nodupb act) with true by (symmetry; apply nodupb_spec; auto). cbn [negb].
  replace (existsb (fun s => (length hs <=? s)%nat) act) with false.
  2:{ symmetry. destruct (existsb _ act) eqn:E; auto. apply existsb_exists in E.
      destruct E as (s & Hin & E). apply Nat.leb_le in E. apply HI in Hin. lia. }
  destruct (forallb (forallb (fun k => negb (kbige S k))) m) eqn:Esmall; [eauto|].
  assert (HD : local_dim hs act <> 0%nat).
  { intros C. rewrite C in Hsq. destruct Hsq as [HL _]. destruct m; [|discriminate].
    simpl in Esmall. discriminate. }
  destruct (reorder_term m act HV HO) as (m' & act' & ER & HG & HS & HT).
  rewrite ER. cbn [bind fst snd].
  destruct HG as (Hne' & Hok' & Hinc' & Hsq').
  assert (HD' : (0 < local_dim hs act')%nat).
  { assert (Permutation act act').
    { apply NoDup_Permutation; auto; [apply Hok'|]. intros; symmetry; apply HS. }
    rewrite <- (local_dim_perm hs act act'); auto. lia. }
  destruct W as [W1 W2].
  assert (HL : length (lo_ops S o) = length (lo_act S o)) by (eapply Forall2_length; eauto).
  destruct (find_support (lo_act S o) act' 0) as [i|] eqn:EF.
  - apply find_support_spec in EF. rewrite Nat.sub_0_r in EF. destruct EF as (_ & Hi & Ei).
    assert (G0 : good_term hs (nth i (lo_ops S o) []) act').
    { rewrite <- Ei. eapply (Forall2_nth' _ _ _ [] [] i) in W1; [exact W1|unfold mat in *; lia]. }
    destruct G0 as (_ & _ & _ & Hsq0).
    pose proof (add_block_square _ m' _ Hsq0 HD') as Hsq1.
    destruct (append_matrix_ok hs _ act' Hsq1) as (dc & EA & _ & _).
    rewrite EA. cbn [bind]. eauto.
  - rewrite (square_nrows S m' _ Hsq').
    replace (nprod (map (@length Z) (lss_of hs act'))) with (local_dim hs act')
      by (rewrite local_dim_mdim; reflexivity).
    rewrite Nat.eqb_refl. cbn [negb].
    destruct (append_matrix_ok hs m' act' Hsq') as (dc & EA & _ & _).
    rewrite EA. cbn [bind]. eauto.
Qed.

(** folds *)
Lemma add_operators_cons o t ts :
  add_operators S dp hs o (t :: ts) =
  (let? a := add_operator S dp hs o (fst t) (snd t) in add_operators S dp hs a ts).
Proof.
  unfold add_operators. cbn [fold_left bind].
  destruct (add_operator S dp hs o (fst t) (snd t)) as [a|e]; auto. cbn [bind].
  induction ts; auto.
Qed.

Definition input_ok (t : mat S * list nat) : Prop := valid_term S hs t /\ order_ok hs (snd t).
Definition input_total (t : mat S * list nat) : Prop :=
  valid_term S hs t /\ ordered_or_uniform hs (snd t).

Lemma add_operators_ok ts : forall o o',
  wf hs o -> Forall input_ok ts -> add_operators S dp hs o ts = Ok o' ->
  wf hs o' /\ (nzd_ok o -> nzd_ok o') /\ lo_const S o' = lo_const S o /\
  forall x y, configuration hs x -> configuration hs y ->
    terms_sum hs (terms_of S o') x y = terms_sum hs (terms_of S o) x y + terms_sum hs ts x y.
Proof.
  induction ts as [|[m act] ts IH]; intros o o' W HF H.
  - inversion H; subst. split; auto. split; auto. split; auto. intros.
    unfold terms_sum at 3, sum. simpl. ring.
  - rewrite add_operators_cons in H. inversion HF as [|? ? [HV HO] HF']; subst.
    cbn [fst snd] in *.
    destruct (add_operator S dp hs o m act) as [a|e] eqn:E; [|discriminate]. cbn [bind] in H.
    destruct (add_operator_ok o m act a W HV HO E) as (W' & Hz & Hc & Ht).
    destruct (IH a o' W' HF' H) as (W'' & Hz' & Hc' & Ht').
    split; auto. split; auto. split; [congruence|]. intros x y Hx Hy.
    rewrite Ht', Ht by auto. unfold terms_sum at 4, sum. cbn [map fold_right fst snd].
    fold (sum S (map (fun t => term_element S hs (fst t) (snd t) x y) ts)).
    fold (terms_sum hs ts x y). ring.
Qed.

Lemma add_operators_total ts : forall o,
  wf hs o -> Forall input_total ts -> exists o', add_operators S dp hs o ts = Ok o'.
Proof.
  induction ts as [|[m act] ts IH]; intros o W HF.
  - exists o; reflexivity.
  - rewrite add_operators_cons. inversion HF as [|? ? [HV HO] HF']; subst. cbn [fst snd] in *.
    destruct (add_operator_total o m act W HV HO) as (a & E). rewrite E. cbn [bind].
    apply IH; auto. eapply add_operator_ok; eauto. apply ou_order; auto.
Qed.

Lemma input_total_ok t : input_total t -> input_ok t.
Proof. intros [H1 H2]. split; auto. apply ou_order; auto. Qed.

Lemma sorted_is_sorted l : StronglySorted Z.lt l -> is_sorted l = true.
Proof.
  induction 1; simpl; auto. destruct l; auto. rewrite IHStronglySorted.
  inversion H0; subst. destruct (Z.ltb_spec z a); auto. lia.
Qed.

Lemma hs_check : forallb is_sorted hs = true.
Proof.
  apply forallb_forall. intros l Hl. apply sorted_is_sorted. unfold sorted_space in Hs.
  rewrite Forall_forall in Hs. auto.
Qed.

Definition nonempty_sites (ts : list (mat S * list nat)) : list (mat S * list nat) :=
  filter (fun t => match snd t with [] => false | _ => true end) ts.

Lemma input_nonempty ts : Forall input_ok ts -> nonempty_sites ts = ts.
Proof.
  induction 1 as [|[m a] ts [(H1 & _) _] _ IH]; auto. unfold nonempty_sites in *.
  cbn [filter snd] in *. destruct a; [congruence|]. f_equal. auto.
Qed.

Lemma wf_empty c b h : wf hs (mkLop S [] [] [] [] c b h).
Proof. constructor; constructor. Qed.

Lemma mk_lop_ok c ts o : Forall input_ok ts -> mk_lop S dp hs c ts = Ok o ->
  wf hs o /\ nzd_ok o /\ lo_const S o = c /\
  forall x y, configuration hs x -> configuration hs y ->
    op_element hs o x y = element S hs c ts x y.
Proof.
  intros HF H. unfold mk_lop in H. rewrite hs_check in H. cbn [negb] in H.
  fold (nonempty_sites ts) in H. rewrite input_nonempty in H by auto.
  destruct (add_operators_ok ts _ _ (wf_empty c _ _) HF H) as (W & Hz & Hc & Ht).
  split; auto. split; [apply Hz; reflexivity|]. cbn [lo_const] in Hc. split; auto.
  intros x y Hx Hy. unfold op_element, element. rewrite Hc. f_equal.
  change (terms_sum hs (terms_of S o) x y = terms_sum hs ts x y).
  rewrite Ht by auto. unfold terms_sum at 1. simpl. unfold sum. simpl. ring.
Qed.

Lemma mk_lop_total c ts : Forall input_total ts -> exists o, mk_lop S dp hs c ts = Ok o.
Proof.
  intros HF. unfold mk_lop. rewrite hs_check. cbn [negb]. fold (nonempty_sites ts).
  rewrite input_nonempty.
  - apply add_operators_total; auto. apply wf_empty.
  - eapply Forall_impl; [|exact HF]. intros; apply input_total_ok; auto.
Qed.

Lemma good_input m act : good_term hs m act -> input_total (m, act).
Proof.
  intros (H1 & [H2 H3] & H4 & H5). split; [repeat split; auto; apply H5|]. left. auto.
Qed.

Lemma wf_inputs o : wf hs o -> Forall input_total (terms_of S o).
Proof.
  intros [W _]. unfold terms_of. induction W; simpl; constructor; auto. apply good_input; auto.
Qed.

Lemma wf_inputs_ok o : wf hs o -> Forall input_ok (terms_of S o).
Proof. intros W. eapply Forall_impl; [|apply wf_inputs; eauto]. intros; apply input_total_ok; auto. Qed.

Lemma copy_ok o : wf hs o ->
  exists o', copy S dp hs o = Ok o' /\ wf hs o' /\ nzd_ok o' /\ lo_const S o' = lo_const S o /\
    forall x y, configuration hs x -> configuration hs y -> op_element hs o' x y = op_element hs o x y.
Proof.
  intros W. destruct (mk_lop_total (lo_const S o) (terms_of S o) (wf_inputs o W)) as (o' & E).
  exists o'. split; auto. apply mk_lop_ok; auto. apply wf_inputs_ok; auto.
Qed.

Definition delta (x y : list Z) (c : K) : K := if zlist_eqb x y then c else 0.

Lemma op_element_split o x y :
  op_element hs o x y = delta x y (lo_const S o) + terms_sum hs (terms_of S o) x y.
Proof. reflexivity. Qed.

Lemma iadd_ok o b : wf hs o -> wf hs b ->
  exists o', iadd S dp hs o b = Ok o' /\ wf hs o' /\ nzd_ok o' /\
    lo_const S o' = lo_const S o + lo_const S b /\
    forall x y, configuration hs x -> configuration hs y ->
      op_element hs o' x y = op_element hs o x y + op_element hs b x y.
Proof.
  intros Wo Wb. destruct (add_operators_total (terms_of S b) o Wo (wf_inputs b Wb)) as (r & E).
  destruct (add_operators_ok _ _ _ Wo (wf_inputs_ok b Wb) E) as ([W1 W2] & _ & Hc & Ht).
  unfold iadd. rewrite E. cbn [bind]. eexists. split; [reflexivity|].
  split; [constructor; [exact W1|exact W2]|]. split; [reflexivity|].
  split; [cbn; rewrite Hc; auto|]. intros x y Hx Hy. rewrite !op_element_split.
  change (terms_of S (set_nzd S (set_const S r (lo_const S r + lo_const S b))
            (has_nonzero_diagonal S (set_const S r (lo_const S r + lo_const S b))))) with (terms_of S r).
  cbn [lo_const set_nzd set_const]. rewrite Ht, Hc by auto. unfold delta. destruct (zlist_eqb x y); ring.
Qed.

Lemma iadd_number_ok o c : wf hs o ->
  wf hs (iadd_number S o c) /\ nzd_ok (iadd_number S o c) /\
  forall x y, op_element hs (iadd_number S o c) x y = op_element hs o x y + delta x y c.
Proof.
  intros [W1 W2]. split; [constructor; [exact W1|exact W2]|]. split; [reflexivity|].
  intros x y. rewrite !op_element_split. unfold iadd_number.
  change (terms_of S (set_nzd S (set_const S o (lo_const S o + c)) (has_nonzero_diagonal S (set_const S o (lo_const S o + c)))))
    with (terms_of S o).
  cbn [lo_const set_nzd set_const]. unfold delta. destruct (zlist_eqb x y); ring.
Qed.

Lemma add_ok a b : wf hs a -> wf hs b ->
  exists o, add S dp hs a b = Ok o /\ wf hs o /\ nzd_ok o /\
    lo_const S o = lo_const S a + lo_const S b /\
    forall x y, configuration hs x -> configuration hs y ->
      op_element hs o x y = op_element hs a x y + op_element hs b x y.
Proof.
  intros Wa Wb. destruct (copy_ok a Wa) as (a' & E & Wa' & _ & Hc & He).
  destruct (iadd_ok a' b Wa' Wb) as (o & E' & Wo & Hz & Hc' & He').
  exists o. unfold add. rewrite E. cbn [bind]. split; auto. split; auto. split; auto.
  split; [rewrite Hc', Hc; auto|]. intros. rewrite He', He by auto. auto.
Qed.

(** scalar multiples *)
Lemma scale_get c m i j : mget S (scale_mat S c m) i j = mget S m i j * c.
Proof.
  unfold mget, scale_mat.
  destruct (Nat.ltb_spec i (length m)).
  - rewrite nth_indep with (d' := map (fun k => k * c) []) by (rewrite map_length; auto).
    rewrite map_nth. destruct (Nat.ltb_spec j (length (nth i m []))).
    + rewrite nth_indep with (d' := 0 * c) by (rewrite map_length; auto).
      rewrite (map_nth (fun k => k * c)). auto.
    + rewrite !nth_overflow by (try rewrite map_length; auto). ring.
  - rewrite (nth_overflow m), (nth_overflow (map _ m)) by (try rewrite map_length; auto).
    destruct j; simpl; ring.
Qed.

Lemma scale_square c m d : square S m d -> square S (scale_mat S c m) d.
Proof.
  intros [H1 H2]. unfold scale_mat. split; [rewrite map_length; auto|].
  apply Forall_map. eapply Forall_impl; [|exact H2]. intros; rewrite map_length; auto.
Qed.

Lemma rows_ok_scale m act dg cn c :
  rows_ok hs m act dg cn ->
  rows_ok hs (scale_mat S c m) act (map (fun k => k * c) dg)
    (map (map (fun p => (fst p * c, snd p))) cn).
Proof.
  intros (H1 & H2 & H). split; [rewrite map_length; auto|]. split; [rewrite map_length; auto|].
  intros r Hr. destruct (H r Hr) as (Hd & J & HN & Hnr & HJ & Hc & Hz). split.
  - rewrite nth_indep with (d' := 0 * c) by (rewrite map_length; congruence).
    rewrite (map_nth (fun k => k * c)). rewrite Hd, scale_get. auto.
  - exists J. split; auto. split; auto. split; auto. split.
    + rewrite nth_indep with (d' := map (fun p : K * list Z => (fst p * c, snd p)) [])
        by (rewrite map_length; congruence).
      rewrite map_nth. rewrite Hc, map_map. apply map_ext. intros j. cbn [fst snd].
      rewrite scale_get. auto.
    + intros j Hj Hjr Hn. rewrite scale_get, Hz by auto. ring.
Qed.

Lemma imul_number_ok o c : wf hs o ->
  wf hs (imul_number S o c) /\ nzd_ok (imul_number S o c) /\
  lo_const S (imul_number S o c) = lo_const S o * c /\
  forall x y, op_element hs (imul_number S o c) x y = op_element hs o x y * c.
Proof.
  intros [W1 W2]. split; [constructor|split; [reflexivity|split; [reflexivity|]]].
  - cbn [lo_ops lo_act imul_number set_nzd]. clear W2. induction W1; simpl; constructor; auto.
    destruct H as (G1 & G2 & G3 & G4). repeat split; auto; try apply G2; apply scale_square; auto.
  - unfold stored in *. cbn [lo_ops lo_act lo_diag lo_conn imul_number set_nzd].
    clear W1. revert W2. generalize (lo_ops S o), (lo_act S o), (lo_diag S o), (lo_conn S o).
    induction 1; simpl; constructor; auto. apply rows_ok_scale; auto.
  - intros x y. rewrite !op_element_split. cbn [lo_const imul_number set_nzd].
    assert (E : terms_sum hs (terms_of S (imul_number S o c)) x y
                = terms_sum hs (terms_of S o) x y * c).
    { unfold terms_of. cbn [lo_ops lo_act imul_number set_nzd]. unfold terms_sum.
      clear W1 W2. generalize (lo_act S o). induction (lo_ops S o) as [|m ms IH]; intros acts.
      - simpl. unfold sum; simpl. ring.
      - destruct acts; [simpl; unfold sum; simpl; ring|].
        unfold sum in *. cbn [map combine fold_right fst snd]. rewrite IH.
        unfold term_element. destruct (same_elsewhere l x y); [|ring].
        change (entry S) with (mget S). rewrite scale_get. ring. }
    change (set_nzd S _ _) with (imul_number S o c) in *.
    rewrite E. unfold delta. destruct (zlist_eqb x y); ring.
Qed.

Lemma mul_number_ok o c : wf hs o ->
  exists o', mul_number S dp hs o c = Ok o' /\ wf hs o' /\ nzd_ok o' /\
    lo_const S o' = lo_const S o * c /\
    forall x y, configuration hs x -> configuration hs y ->
      op_element hs o' x y = op_element hs o x y * c.
Proof.
  intros W. destruct (copy_ok o W) as (o1 & E & W1 & _ & Hc & He).
  unfold mul_number. rewrite E. cbn [bind]. eexists. split; [reflexivity|].
  destruct (imul_number_ok o1 c W1) as (W2 & Hz & Hc2 & He2).
  split; auto. split; auto. split; [rewrite Hc2, Hc; auto|]. intros. rewrite He2, He by auto. auto.
Qed.

(** ** get_conn of a well-formed operator *)
Lemma nzd_false_zero o : nzd_ok o -> lo_nzd S o = false -> diag_zero o.
Proof.
  intros Hz E. unfold nzd_ok in Hz. rewrite E in Hz. unfold has_nonzero_diagonal in Hz.
  symmetry in Hz. apply orb_false_iff in Hz. destruct Hz as [H1 H2].
  assert (Z0 : forall k, kbige S k = false -> k = 0).
  { intros k Hk. apply NS. destruct (kbig S k) eqn:Ek; auto. apply (k_big_bige S L) in Ek. congruence. }
  split; [auto|]. intros dg Hdg z Hzin. apply Z0.
  destruct (kbige S z) eqn:Ez; auto. exfalso.
  assert (C : existsb (existsb (kbige S)) (lo_diag S o) = true).
  { apply existsb_exists. exists dg. split; auto. apply existsb_exists. eauto. }
  congruence.
Qed.

Lemma nzd_cases o : nzd_ok o -> lo_nzd S o = true \/ diag_zero o.
Proof. intros H. destruct (lo_nzd S o) eqn:E; [auto|right; apply nzd_false_zero; auto]. Qed.

End Add.
End Build.
