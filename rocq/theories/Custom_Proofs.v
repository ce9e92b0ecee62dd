(** * Proofs about Metropolis moves given by an operator *)
From Coq Require Import ZArith List Bool QArith Qcanon Lia Lqa Sorting.Sorted Sorting.Permutation.
From Verif Require Import Base BaseFacts Scalar LocalOp_Model LocalOp_Spec LocalOp_Facts LocalOp_Kernel
  LocalOp_Reorder LocalOp_Build LocalOp_Laws LocalOp_Proofs Custom_Model Custom_Spec.
Import ListNotations.
Open Scope nat_scope.
Open Scope list_scope.

(** linear arithmetic on Qc *)
Ltac qcq := unfold Qcle, Qclt, Qcminus, Qcplus, Qcopp, Qcmult, Q2Qc in *; cbn [this] in *;
  rewrite ?Qred_correct in *.
Ltac qclra := qcq; lra.

Lemma qc_ltb_lt a b : qc_ltb a b = true <-> (a < b)%Qc.
Proof. unfold qc_ltb. rewrite Qclt_alt. destruct (a ?= b)%Qc; split; intros; auto; discriminate. Qed.
Lemma qc_ltb_ge a b : qc_ltb a b = false <-> (b <= a)%Qc.
Proof.
  split; intros H.
  - apply Qcnot_lt_le. intros C. apply qc_ltb_lt in C. congruence.
  - destruct (qc_ltb a b) eqn:E; auto. apply qc_ltb_lt in E. exfalso. revert E. apply Qcle_not_lt. auto.
Qed.
Lemma qc_leb_le a b : qc_leb a b = true <-> (a <= b)%Qc.
Proof. unfold qc_leb. rewrite Qcle_alt. destruct (a ?= b)%Qc; split; intros; auto; try discriminate; congruence. Qed.

Lemma total_app a b : total (a ++ b) = (total a + total b)%Qc.
Proof. induction a as [|x a IH]; cbn [total app]; [ring|]. rewrite IH. ring. Qed.
Lemma total_perm a b : Permutation a b -> total a = total b.
Proof. induction 1; cbn [total]; auto; [congruence|ring|congruence]. Qed.
Lemma total_zero {A} (f : A -> Qc) l : (forall x, In x l -> f x = 0%Qc) -> total (map f l) = 0%Qc.
Proof. induction l as [|x l IH]; intros H; cbn [map total]; auto. rewrite H by (left; auto). rewrite IH by (intros; apply H; right; auto). ring. Qed.
Lemma total_nonneg l : (forall x, In x l -> (0 <= x)%Qc) -> (0 <= total l)%Qc.
Proof.
  induction l as [|x l IH]; intros H; cbn [total]; [apply Qcle_refl|].
  assert (H1 := H x (or_introl eq_refl)). assert (H2 : (0 <= total l)%Qc) by (apply IH; intros; apply H; right; auto).
  qclra.
Qed.
Lemma total_scale c l : total (map (fun x => x / c)%Qc l) = (total l / c)%Qc.
Proof. induction l as [|x l IH]; cbn [map total]; [unfold Qcdiv; ring|rewrite IH; unfold Qcdiv; ring]. Qed.
Lemma qsum_total l : qsum l = total l.
Proof. induction l as [|x l IH]; [auto|]. change (qsum (x :: l)) with (x + qsum l)%Qc. rewrite IH. auto. Qed.

(** ** drawing with cumulative sums *)
Lemma first_spec l : forall acc p, (acc < p)%Qc -> (p <= acc + total l)%Qc ->
  exists before w after, l = before ++ w :: after /\ first_not_below (qcumsum acc l) p = length before /\
    (acc + total before < p)%Qc /\ (p <= acc + total before + w)%Qc.
Proof.
  induction l as [|x l IH]; intros acc p H1 H2; cbn [total] in H2.
  - exfalso. qclra.
  - cbn [qcumsum first_not_below]. destruct (qc_ltb (acc + x)%Qc p) eqn:E.
    + apply qc_ltb_lt in E. destruct (IH (acc + x)%Qc p E) as (b & w & a & G1 & G2 & G3 & G4); [qclra|].
      exists (x :: b), w, a. subst l. cbn [app length total]. split; [auto|]. split; [congruence|]. split; qclra.
    + apply qc_ltb_ge in E. exists [], x, l. cbn [app length total]. split; [auto|]. split; [auto|]. split; qclra.
Qed.

Lemma seq_split_map (l : list Qc) before w after : l = before ++ w :: after ->
  exists b' a', map (fun i => (i, nth i l 0%Qc)) (seq 0 (length l)) = b' ++ (length before, w) :: a' /\
    map snd b' = before.
Proof.
  intros ->. rewrite app_length. cbn [length]. rewrite seq_app, map_app. cbn [seq map Nat.add].
  rewrite app_nth2 by lia. rewrite Nat.sub_diag. cbn [nth].
  eexists _, _. split; [reflexivity|]. rewrite map_map. cbn [snd].
  transitivity (firstn (length before) before); [|apply firstn_all].
  assert (G : forall n, n <= length before -> map (fun x => nth x (before ++ w :: after) 0%Qc) (seq 0 n) = firstn n before).
  { induction n; intros; auto. rewrite seq_S, map_app, IHn by lia. cbn [map Nat.add].
    rewrite app_nth1 by lia. rewrite (firstn_S_snoc before n 0%Qc) by lia. auto. }
  apply G; auto.
Qed.

(** the weighted configurations of a row *)
Definition law_of (row : list (list Z * GQ)) : list (list Z * Qc) :=
  map (fun e => (fst e, fst (snd e))) row.

Lemma walk_spec row : forall rest acc p, (acc < p)%Qc -> (p <= acc + total (map snd (law_of row)))%Qc ->
  exists y before w after, law_of row = before ++ (y, w) :: after /\ walk acc p (row ++ rest) = Ok y /\
    (acc + total (map snd before) < p)%Qc /\ (p <= acc + total (map snd before) + w)%Qc.
Proof.
  unfold law_of. induction row as [|[y m] row IH]; intros rest acc p H1 H2; cbn [map total fst snd] in H2.
  - exfalso. qclra.
  - cbn [walk app map fst snd]. cbv zeta. destruct (qc_ltb (acc + fst m)%Qc p) eqn:E.
    + apply qc_ltb_lt in E. destruct (IH rest (acc + fst m)%Qc p E) as (y' & b & w & a & G1 & G2 & G3 & G4); [qclra|].
      exists y', ((y, fst m) :: b), w, a. rewrite G1. cbn [app map total snd]. split; [auto|]. split; [auto|]. split; qclra.
    + apply qc_ltb_ge in E. exists y, [], (fst m), (map (fun e => (fst e, fst (snd e))) row).
      cbn [app map total]. split; [auto|]. split; [auto|]. split; qclra.
Qed.

Lemma choose_spec rows : forall pre vs, length vs = length rows ->
  (forall b, b < length rows -> (0 < nth b vs 0)%Qc /\
     (nth b vs 0 <= total (map snd (law_of (nth b rows []))))%Qc) ->
  exists ys, choose (pre ++ concat rows) (length pre) (LocalOp_Model.cumsum (length pre) (map (@length _) rows)) vs = Ok ys
    /\ length ys = length rows /\
    forall b, b < length rows -> drawn (law_of (nth b rows [])) (nth b vs 0%Qc) (nth b ys []).
Proof.
  induction rows as [|row rows IH]; intros pre vs HL HV; destruct vs as [|v vs]; cbn [length] in HL; try lia.
  - exists []. cbn [choose]. split; [auto|]. split; [auto|]. cbn [length]. intros; lia.
  - cbn [choose map LocalOp_Model.cumsum concat].
    assert (Ek : skipn (length pre) (pre ++ row ++ concat rows) = row ++ concat rows).
    { rewrite skipn_app, skipn_all, Nat.sub_diag. reflexivity. }
    rewrite Ek. destruct (HV 0) as [V1 V2]; [cbn [length]; lia|]. cbn [nth] in V1, V2.
    destruct (walk_spec row (concat rows) 0%Qc v V1) as (y & b & w & a & G1 & G2 & G3 & G4); [qclra|].
    rewrite G2. cbn [bind].
    destruct (IH (pre ++ row) vs) as (ys & E1 & E2 & E3); [lia| |].
    { intros k Hk. apply (HV (S k)). cbn [length]. lia. }
    rewrite <- app_assoc, app_length in E1. rewrite E1. cbn [bind].
    exists (y :: ys). split; [auto|]. split; [cbn [length]; lia|].
    intros [|k] Hk; cbn [nth].
    + exists b, w, a. split; [auto|]. split; qclra.
    + apply E3. cbn [length] in Hk. lia.
Qed.

(** ** the operator built from the moves *)
Lemma add_operators_ops S depth hs ts : forall o pre o',
  Forall (valid_term S hs) ts -> Forall (fun t => increasing_sites (snd t)) ts ->
  NoDup (map snd pre ++ map snd ts) ->
  lo_act S o = map snd (kept S pre) -> lo_ops S o = map fst (kept S pre) ->
  add_operators S (Datatypes.S depth) hs o ts = Ok o' -> lo_ops S o' = map fst (kept S (pre ++ ts)).
Proof.
  induction ts as [|[m act] ts IH]; intros o pre o' HV HI HN Ha Hst E.
  - cbn in E. injection E as <-. rewrite app_nil_r. auto.
  - rewrite add_operators_cons in E. inversion HV as [|? ? V1 V2]; subst. inversion HI as [|? ? I1 I2]; subst.
    cbn [fst snd] in *. pose proof V1 as (Hne & HNa & HIa & Hsq). cbn [fst snd] in *.
    replace (pre ++ (m, act) :: ts) with ((pre ++ [(m, act)]) ++ ts) by (rewrite <- app_assoc; auto).
    assert (HN' : NoDup (map snd (pre ++ [(m, act)]) ++ map snd ts)).
    { rewrite map_app, <- app_assoc. exact HN. }
    unfold add_operator in E.
    replace (nodupb act) with true in E by (symmetry; apply nodupb_spec; auto). cbn [negb] in E.
    replace (existsb (fun s => (length hs <=? s)%nat) act) with false in E.
    2:{ symmetry. destruct (existsb _ act) eqn:E1; auto. apply existsb_exists in E1.
        destruct E1 as (s & Hin & E1). apply Nat.leb_le in E1. apply HIa in Hin. lia. }
    destruct (forallb (forallb (fun k => negb (kbige S k))) m) eqn:Esmall.
    { cbn [bind] in E. assert (EK : kept S (pre ++ [(m, act)]) = kept S pre).
      { unfold kept. rewrite filter_app. cbn [filter fst]. rewrite Esmall. cbn [negb]. apply app_nil_r. }
      refine (IH o (pre ++ [(m, act)]) _ V2 I2 HN' _ _ E); rewrite EK; auto. }
    rewrite reorder_sorted in E by auto. cbn [bind fst snd] in E.
    rewrite Ha, find_support_none in E.
    2:{ intros C. apply in_map_iff in C. destruct C as (t & E1 & Hin). unfold kept in Hin.
        apply filter_In in Hin. destruct Hin as [Hin _]. cbn [map snd] in HN.
        apply NoDup_remove_2 in HN. apply HN. apply in_app_iff. left. apply in_map_iff. eauto. }
    rewrite (square_nrows S m _ Hsq) in E.
    replace (nprod (map (@length Z) (lss_of hs act))) with (local_dim hs act) in E
      by (rewrite local_dim_mdim; reflexivity).
    rewrite Nat.eqb_refl in E. cbn [negb] in E.
    destruct (append_matrix_ok S hs m act Hsq) as (dc & EA & HR & _). rewrite EA in E. cbn [bind] in E.
    assert (EK : kept S (pre ++ [(m, act)]) = kept S pre ++ [(m, act)]).
    { unfold kept. rewrite filter_app. cbn [filter fst]. rewrite Esmall. auto. }
    refine (IH _ (pre ++ [(m, act)]) _ V2 I2 HN' _ _ E); cbn [lo_act lo_ops set_nzd]; rewrite EK, map_app; auto.
    cbn [map fst]. congruence.
Qed.

Lemma ds_entry_ok m d i j : doubly_stochastic m d -> i < d -> j < d -> real_nonneg (nth j (nth i m []) gq0).
Proof.
  intros [[H1 H2] H3 _ _] Hi Hj. assert (Hr : In (nth i m []) m) by (apply nth_In; lia).
  apply (H3 _ _ Hr). apply nth_In. rewrite (H2 _ Hr). auto.
Qed.

Lemma total_nonzero {A} (f : A -> Qc) l : total (map f l) <> 0%Qc -> exists x, In x l /\ f x <> 0%Qc.
Proof.
  induction l as [|x l IH]; cbn [map total]; intros H; [congruence|].
  destruct (Qc_eq_dec (f x) 0%Qc) as [E|E].
  - destruct IH as (y & Hy & Ey). { intros C. apply H. rewrite E, C. ring. }
    exists y. split; [right|]; auto.
  - exists x. split; [left|]; auto.
Qed.

Lemma big_of_real z : real_nonneg z -> (Q2Qc (1 # 10 ^ 6) < fst z)%Qc -> gq_big z = true.
Proof.
  destruct z as [a b]. intros [H1 H2] H3. cbn [fst snd] in *. subst b. unfold gq_big, gq_norm2. cbn [fst snd].
  apply qc_ltb_lt. qcq. change (Qred (1 # 10 ^ 6)) with (1 # 1000000)%Q in *.
  change (Qred (1 # 10 ^ 12)) with (1 # 1000000000000)%Q in *. cbn in H3 |- *. nra.
Qed.

Lemma filter_all {A} (f : A -> bool) l : (forall x, In x l -> f x = true) -> filter f l = l.
Proof. induction l as [|a l IH]; intros H; cbn [filter]; auto. rewrite H by (left; auto). f_equal. apply IH. intros; apply H; right; auto. Qed.

Section Moves.
Variable hs : list (list Z).
Hypothesis Hs : sorted_space hs.
Variable ts : list (list (list GQ) * list nat).
Hypothesis Hok : moves_ok hs ts.

Lemma move_parts t : In t ts -> snd t <> [] /\ increasing_sites (snd t) /\
  (forall s, In s (snd t) -> s < length hs) /\ 0 < local_dim hs (snd t) /\
  doubly_stochastic (fst t) (local_dim hs (snd t)) /\ no_tiny (fst t).
Proof. intros Ht. destruct Hok as [H _]. rewrite Forall_forall in H. apply H; auto. Qed.

Lemma move_square t : In t ts -> square gqS (fst t) (local_dim hs (snd t)).
Proof.
  intros Ht. destruct (move_parts t Ht) as (_ & _ & _ & _ & [[H1 H2] _ _ _] & _). split; [exact H1|].
  apply Forall_forall. exact H2.
Qed.

Lemma sorted_nodup l : StronglySorted lt l -> NoDup l.
Proof.
  induction 1 as [|a l H1 IH H2]; constructor; auto. intros C. rewrite Forall_forall in H2.
  apply H2 in C. lia.
Qed.

Lemma move_valid t : In t ts -> valid_term gqS hs t.
Proof.
  intros Ht. destruct (move_parts t Ht) as (H1 & H2 & H3 & H4 & _). split; [auto|]. split; [apply sorted_nodup; auto|].
  split; [auto|]. apply move_square; auto.
Qed.

Lemma entry_big t i j : In t ts -> i < local_dim hs (snd t) -> j < local_dim hs (snd t) ->
  fst (nth j (nth i (fst t) []) gq0) <> 0%Qc -> gq_big (nth j (nth i (fst t) []) gq0) = true.
Proof.
  intros Ht Hi Hj Hn. destruct (move_parts t Ht) as (_ & _ & _ & _ & D & T).
  pose proof (ds_entry_ok _ _ i j D Hi Hj) as R. apply big_of_real; auto.
  destruct D as [[D1 D2] _ _ _].
  assert (Hr : In (nth i (fst t) []) (fst t)) by (apply nth_In; lia).
  destruct (T _ _ Hr (nth_In (nth i (fst t) []) gq0 (eq_ind_r (fun n => j < n) Hj (D2 _ Hr)))) as [C|C]; [congruence|auto].
Qed.

Lemma kept_move t : In t ts -> negb (forallb (forallb (fun k : GQ => negb (gq_bige k))) (fst t)) = true.
Proof.
  intros Ht.
  destruct (forallb (forallb (fun k : GQ => negb (gq_bige k))) (fst t)) eqn:E; [exfalso|reflexivity].
    destruct (move_parts t Ht) as (_ & _ & _ & Hd & D & T).
    assert (N : total (map (fun j => re_entry (fst t) 0 j) (seq 0 (local_dim hs (snd t)))) <> 0%Qc).
    { intros C. assert (C1 : 1%Qc = 0%Qc) by (rewrite <- C; symmetry; exact (ds_rows _ _ D 0 Hd)). discriminate. }
    apply total_nonzero in N. destruct N as (j & Hj & N). apply in_seq in Hj. unfold re_entry in N.
    apply (entry_big t 0 j Ht Hd) in N; [|lia].
    apply (k_big_bige gqS gq_laws) in N.
    rewrite forallb_forall in E. destruct D as [[D1 D2] _ _ _].
    assert (Hr : In (nth 0 (fst t) []) (fst t)) by (apply nth_In; lia).
    specialize (E _ Hr). rewrite forallb_forall in E.
    assert (Hz : In (nth j (nth 0 (fst t) []) gq0) (nth 0 (fst t) [])) by (apply nth_In; rewrite (D2 _ Hr); lia).
    specialize (E _ Hz). cbn [kbige gqS] in N. rewrite N in E. discriminate.
Qed.

Lemma kept_all : kept gqS ts = ts.
Proof. unfold kept. apply filter_all. exact kept_move. Qed.

Lemma chop_move t : In t ts -> chop gqS (local_dim hs (snd t)) (fst t) = fst t.
Proof.
  intros Ht. pose proof (move_square t Ht) as Hsq. destruct (move_parts t Ht) as (_ & _ & _ & Hd & D & T).
  apply (square_ext gqS) with (d := local_dim hs (snd t)); auto; [apply mbuild_square|].
  intros i j Hi Hj. unfold chop. rewrite mbuild_get by auto.
  destruct (Nat.eqb i j || kbig gqS (mget gqS (fst t) i j)) eqn:E; auto.
  apply orb_false_iff in E. destruct E as [_ E]. symmetry.
  destruct (ds_entry_ok _ _ i j D Hi Hj) as [R1 R2].
  destruct (Qc_eq_dec (fst (nth j (nth i (fst t) []) gq0)) 0%Qc) as [Z0|Z0].
  - unfold mget. change (k0 gqS) with gq0 in *. destruct (nth j (nth i (fst t) []) gq0) as [a b] eqn:En.
    cbn [fst snd] in *. subst. exact En.
  - apply (entry_big t i j Ht Hi Hj) in Z0. exfalso. assert (C : true = false) by (rewrite <- Z0; exact E). discriminate.
Qed.

Lemma build_moves depth : exists o, mk_lop gqS (Datatypes.S depth) hs gq0 ts = Ok o /\
  lo_ops gqS o = map fst ts /\ lo_act gqS o = map snd ts /\ stored gqS hs o (map fst ts) /\
  lo_const gqS o = gq0.
Proof.
  set (o0 := mkLop gqS [] [] [] [] gq0 (kbige gqS gq0) true).
  assert (V1 : Forall (valid_term gqS hs) ts) by (apply Forall_forall; intros; apply move_valid; auto).
  assert (V2 : Forall (fun t : mat gqS * list nat => increasing_sites (snd t)) ts)
    by (apply Forall_forall; intros t Ht; apply (move_parts t Ht)).
  destruct Hok as [_ HN].
  destruct (add_operators_distinct gqS depth hs ts o0 []) as (o & E & Ea & Est & Hz & Ec); auto;
    [apply terms_nil|reflexivity|].
  exists o. split.
  { unfold mk_lop. rewrite (LocalOp_Build.hs_check hs Hs). cbn [negb]. fold o0.
    replace (filter _ ts) with ts; [exact E|]. symmetry. clear - V1.
    induction V1 as [|[m a] l H1 H2 IH]; cbn [filter snd]; auto. destruct H1 as (H1 & _).
    cbn [snd] in *. destruct a; [congruence|]. f_equal; auto. }
  cbn [app] in Ea, Est. rewrite kept_all in Ea, Est.
  split. { rewrite (add_operators_ops gqS depth hs ts o0 [] o) by auto. cbn [app]. rewrite kept_all. auto. }
  split; [auto|]. split; [|exact Ec].
  replace (map fst ts) with (map fst (chopped gqS hs ts)); [exact Est|].
  unfold chopped. rewrite map_map. cbn [fst]. apply map_ext_in. intros t Ht. apply chop_move; auto.
Qed.

Lemma terms_ok_nth ms acts dgs cns i : terms_ok gqS hs ms acts dgs cns -> i < length ms ->
  sites_ok hs (nth i acts []) /\ rows_ok gqS hs (nth i ms []) (nth i acts []) (nth i dgs []) (nth i cns []) /\
  length cns = length ms.
Proof.
  intros H. revert i. induction H as [|m ms act acts dg dgs cn cns H1 H2 H3 IH]; intros i Hi; cbn [length] in Hi; [lia|].
  assert (HL : length cns = length ms).
  { clear - H3. induction H3; cbn [length]; auto. }
  destruct i as [|i]; cbn [nth length].
  - split; [auto|]. split; auto.
  - destruct (IH i) as (A & B & C); [lia|]. split; [auto|]. split; auto.
Qed.

Lemma total_complement (f : nat -> Qc) D r J : r < D -> NoDup J -> ~ In r J -> (forall j, In j J -> j < D) ->
  (forall j, j < D -> j <> r -> ~ In j J -> f j = 0%Qc) ->
  total (map f (seq 0 D)) = (f r + total (map f J))%Qc.
Proof.
  intros Hr HN Hn HJ Hz.
  set (rest := filter (fun j => negb (existsb (Nat.eqb j) (r :: J))) (seq 0 D)).
  assert (HP : Permutation (seq 0 D) ((r :: J) ++ rest)).
  { assert (Hrest : forall j, In j rest <-> j < D /\ ~ In j (r :: J)).
    { intros j. unfold rest. rewrite filter_In, in_seq, negb_true_iff.
      destruct (existsb (Nat.eqb j) (r :: J)) eqn:E.
      - apply existsb_exists in E. destruct E as (k & Hk & E). apply Nat.eqb_eq in E. subst k.
        split; [intros [_ C]; discriminate|]. intros [_ C]. tauto.
      - split; [|intros []; split; auto; lia]. intros [H _]. split; [lia|]. intros C.
        assert (existsb (Nat.eqb j) (r :: J) = true) by (apply existsb_exists; exists j; split; auto; apply Nat.eqb_refl).
        congruence. }
    apply NoDup_Permutation.
    - apply seq_NoDup.
    - assert (HN1 : NoDup (r :: J)) by (constructor; auto).
      assert (HN2 : NoDup rest) by (apply NoDup_filter, seq_NoDup).
      clear - HN1 HN2 Hrest. revert HN1 Hrest. generalize (r :: J) as l.
      induction l as [|a l IH]; intros HN1 Hrest; cbn [app]; auto. inversion HN1; subst. constructor.
      + rewrite in_app_iff. intros [C|C]; [tauto|]. apply Hrest in C. destruct C as [_ C]. apply C. left; auto.
      + assert (G : forall r0, NoDup r0 -> (forall j, In j r0 -> ~ In j l) -> NoDup (l ++ r0)).
        { clear - H2. induction l as [|b l IHl]; intros r0 N1 N2; cbn [app]; auto. inversion H2; subst. constructor.
          - rewrite in_app_iff. intros [C|C]; [tauto|]. apply N2 in C. apply C. left; auto.
          - apply IHl; auto. intros j Hj C. apply (N2 j Hj). right; auto. }
        apply G; auto. intros j Hj C. apply Hrest in Hj. destruct Hj as [_ Hj]. apply Hj. right; auto.
    - intros j. rewrite in_app_iff, Hrest, in_seq. split.
      + intros H. destruct (in_dec Nat.eq_dec j (r :: J)); [left; auto|right; split; [lia|auto]].
      + intros [[<-|H]|[H _]]; [lia| |lia]. apply HJ in H. lia. }
  apply (Permutation_map f) in HP. apply total_perm in HP. rewrite HP, map_app, total_app. cbn [map total].
  replace (total (map f rest)) with 0%Qc; [ring|]. symmetry. apply total_zero. intros j Hj.
  apply filter_In in Hj. destruct Hj as [Hj E]. apply in_seq in Hj.
  assert (Hn2 : ~ In j (r :: J)).
  { intros C. assert (existsb (Nat.eqb j) (r :: J) = true) by (apply existsb_exists; exists j; split; auto; apply Nat.eqb_refl).
    rewrite H in E. discriminate. }
  apply Hz; [lia|intros ->; apply Hn2; left; auto|intros C; apply Hn2; right; auto].
Qed.

Lemma mass_weight row y : mass (law_of row) y = fst (weight gqS row y).
Proof.
  unfold mass, law_of, weight. rewrite map_map. cbn [fst snd].
  induction row as [|[z m] row IH]; [reflexivity|]. cbn [map total fst snd].
  rewrite IH. unfold sum at 2. cbn [map fold_right fst snd]. cbn [kadd gqS]. unfold gq_add. cbn [fst].
  f_equal. destruct (zlist_eqb z y); reflexivity.
Qed.

Lemma row_law o i x : stored gqS hs o (map fst ts) -> lo_act gqS o = map snd ts -> lo_const gqS o = gq0 ->
  i < length ts -> configuration hs x ->
  exists row, get_conn_filtered gqS hs o x i = Ok row /\
    total (map snd (law_of row)) = 1%Qc /\
    (forall p, In p (law_of row) -> configuration hs (fst p) /\ (0 <= snd p)%Qc) /\
    (forall z, configuration hs z -> mass (law_of row) z = move_prob hs (nth i ts ([], [])) x z).
Proof.
  intros Hst Ha Hc Hi Hx. set (t := nth i ts ([], [])).
  assert (Ht : In t ts) by (apply nth_In; auto).
  destruct (terms_ok_nth _ _ _ _ i Hst) as (Hsites & HR & HL); [rewrite map_length; auto|].
  rewrite Ha in *.
  assert (Em : nth i (map fst ts) [] = fst t).
  { unfold t. change (@nil (list GQ)) with (fst (@nil (list GQ), @nil nat)). apply map_nth. }
  assert (Ea : nth i (map snd ts) [] = snd t).
  { unfold t. change (@nil nat) with (snd (@nil (list GQ), @nil nat)) at 1. apply map_nth. }
  assert (HR' : rows_ok gqS hs (fst t) (snd t) (nth i (lo_diag gqS o) []) (nth i (lo_conn gqS o) []))
    by (rewrite <- Em, <- Ea; exact HR).
  clear HR. rename HR' into HR. rewrite Ea in Hsites.
  unfold get_conn_filtered.
  replace (i <? length (lo_conn gqS o))%nat with true
    by (symmetry; apply Nat.ltb_lt; rewrite HL, map_length; auto). cbn [negb].
  rewrite Ha, Ea. cbv zeta.
  set (r := loc_index hs (snd t) x).
  assert (Er : xs_index (lss_of hs (snd t)) (x_sites x (snd t)) = r).
  { unfold r. rewrite loc_index_mrank. apply xs_index_mrank.
    - apply lss_sorted; auto. apply Hsites.
    - apply x_sites_mword; auto. apply Hsites. }
  assert (Hr : r < local_dim hs (snd t)) by (apply loc_index_lt; auto; apply Hsites).
  rewrite Er. set (dg := nth i (lo_diag gqS o) []) in *. set (cn := nth i (lo_conn gqS o) []) in *.
  pose proof HR as (L1 & L2 & HR2).
  assert (Bd : bget dg r = Ok (nth r dg gq0)).
  { unfold bget. rewrite (nth_error_nth' dg gq0) by (rewrite L1; auto). reflexivity. }
  assert (Bc : bget cn r = Ok (nth r cn [])).
  { unfold bget. rewrite (nth_error_nth' cn []) by (rewrite L2; auto). reflexivity. }
  rewrite Bd. cbn [bind]. rewrite Bc. cbn [bind]. rewrite Hc.
  eexists. split; [reflexivity|].
  change (map (fun p => (put_sites x (snd t) (snd p), fst p)) (nth r cn []))
    with (term_pairs gqS x (snd t) (nth r cn [])).
  destruct (move_parts t Ht) as (_ & _ & _ & Hd & D & T).
  destruct (HR2 r Hr) as (E1 & J & HN & HrJ & HJ & E2 & Hz).
  change (k0 gqS) with gq0 in E1.
  assert (Ed : kadd gqS gq0 (nth r dg gq0) = mget gqS (fst t) r r).
  { rewrite E1. cbn [kadd gqS]. destruct (mget gqS (fst t) r r) as [a b]. unfold gq_add, gq0. cbn [fst snd]. f_equal; ring. }
  rewrite Ed. rewrite E2.
  split; [|split].
  - unfold law_of, term_pairs. cbn [map fst snd total]. rewrite !map_map. cbn [fst snd].
    rewrite <- (ds_rows _ _ D r Hr). symmetry.
    apply (total_complement (fun j => re_entry (fst t) r j) (local_dim hs (snd t)) r J); auto.
    intros j Hj Hjr HjJ. unfold re_entry. pose proof (Hz j Hj Hjr HjJ) as G. unfold mget in G. cbn [k0 gqS] in G.
    match goal with |- fst ?a = _ => change (fst a) with (fst (nth j (nth r (fst t) []) gq0)) end.
    etransitivity; [exact (f_equal fst G)|reflexivity].
  - intros p Hp. unfold law_of in Hp. cbn [map fst snd] in Hp. destruct Hp as [<-|Hp]; cbn [fst snd].
    + split; auto. destruct (ds_entry_ok _ _ r r D Hr Hr) as [_ G]. exact G.
    + apply in_map_iff in Hp. destruct Hp as (q & <- & Hq). cbn [fst snd]. split.
      * rewrite <- E2 in Hq. eapply (term_configs gqS hs (fst t) (snd t) dg cn x); eauto.
      * unfold term_pairs in Hq. rewrite map_map in Hq. apply in_map_iff in Hq. destruct Hq as (j & <- & Hj).
        cbn [fst snd]. destruct (ds_entry_ok _ _ r j D Hr (HJ j Hj)) as [_ G]. exact G.
  - intros z Hzc. rewrite mass_weight. unfold move_prob.
    rewrite <- (term_weight gqS gq_laws hs (fst t) (snd t) dg cn x z) by auto. fold r.
    change (k0 gqS) with gq0. rewrite E1, <- E2.
    unfold weight at 1. cbn [map fst snd]. unfold sum at 1. cbn [fold_right].
    change (fold_right (kadd gqS) (k0 gqS)
      (map (fun p => if zlist_eqb (fst p) z then snd p else k0 gqS) (term_pairs gqS x (snd t) (nth r cn []))))
      with (weight gqS (term_pairs gqS x (snd t) (nth r cn [])) z).
    cbn [kadd gqS]. unfold gq_add. cbn [fst]. change (k0 gqS) with gq0. ring.
Qed.
End Moves.

(** ** the checks of the constructor *)
Lemma gsum_parts l : gsum l = (total (map fst l), total (map snd l)).
Proof.
  induction l as [|z l IH]; [reflexivity|]. change (gsum (z :: l)) with (gq_add z (gsum l)). rewrite IH. reflexivity.
Qed.

Lemma gsum_one l (d : nat) (f : nat -> Qc) : length l = d -> (forall z, In z l -> snd z = 0%Qc) ->
  (forall j, j < d -> fst (nth j l gq0) = f j) -> total (map f (seq 0 d)) = 1%Qc -> gsum l = gq1.
Proof.
  intros HL H0 Hf Ht. rewrite gsum_parts. unfold gq1. f_equal.
  - rewrite <- Ht. f_equal. rewrite <- HL in *. clear - Hf. revert f Hf.
    induction l as [|z l IH]; intros f Hf; cbn [length seq map]; [reflexivity|].
    f_equal; [apply (Hf 0); cbn [length]; lia|]. rewrite <- seq_shift, map_map. apply IH.
    intros j Hj. apply (Hf (S j)). cbn [length]. lia.
  - apply total_zero. auto.
Qed.

Lemma close_refl a : gq_close a a = true.
Proof.
  unfold gq_close. apply orb_true_iff. left. apply qc_leb_le.
  assert (He : (0 <= gq_norm2 a)%Qc).
  { unfold gq_norm2. destruct a as [p q]. cbn [fst snd]. qcq. nra. }
  replace (gq_norm2 (gq_sub a a)) with 0%Qc by (unfold gq_norm2, gq_sub; cbn [fst snd]; ring).
  set (e := gq_norm2 a) in *. clearbody e. destruct e as [e Ce].
  change (10 ^ 16)%positive with 10000000000000000%positive.
  change (10 ^ 10)%positive with 10000000000%positive. qclra.
Qed.

Lemma check_ds m d : 0 < d -> doubly_stochastic m d -> check_operator m = true.
Proof.
  intros Hd D. pose proof D as [[D1 D2] D3 D4 D5]. unfold check_operator.
  assert (Ec : ncolumns m = d).
  { destruct m as [|r m]; cbn [length] in D1; [lia|]. cbn [ncolumns]. apply D2. left; auto. }
  rewrite Ec, D1.
  assert (Hrow : forall i, i < d -> gsum (nth i m []) = gq1).
  { intros i Hi. assert (Hr : In (nth i m []) m) by (apply nth_In; lia).
    apply (gsum_one _ d (fun j => re_entry m i j)); auto. intros z Hz. apply (D3 _ _ Hr Hz). }
  repeat (apply andb_true_iff; split).
  - apply forallb_forall. intros r Hr. apply forallb_forall. intros z Hz. destruct (D3 r z Hr Hz) as [-> _].
    apply qc_ltb_lt. reflexivity.
  - apply forallb_forall. intros r Hr. apply forallb_forall. intros z Hz. destruct (D3 r z Hr Hz) as [E G].
    unfold lex_nonneg. rewrite E. apply orb_true_iff. right. apply andb_true_iff. split; [apply qc_leb_le; auto|reflexivity].
  - apply forallb_forall. intros j Hj. apply in_seq in Hj. replace (gsum (column m j)) with gq1; [apply close_refl|].
    symmetry. apply (gsum_one _ d (fun i => re_entry m i j)).
    + unfold column. rewrite map_length. auto.
    + intros z Hz. unfold column in Hz. apply in_map_iff in Hz. destruct Hz as (r & <- & Hr).
      apply (D3 r); auto. apply nth_In. rewrite (D2 r Hr). lia.
    + intros i Hi. unfold column, re_entry. rewrite nth_indep with (d' := nth j [] gq0) by (rewrite map_length; lia).
      rewrite (map_nth (fun r => nth j r gq0)). reflexivity.
    + rewrite <- (D4 j) by lia. f_equal. apply map_ext_in. intros i Hi. apply in_seq in Hi. apply D5; lia.
  - apply forallb_forall. intros r Hr. destruct (In_nth _ _ [] Hr) as (i & Hi & <-). rewrite Hrow by lia. apply close_refl.
  - apply forallb_forall. intros i Hi. apply forallb_forall. intros j Hj. apply in_seq in Hi, Hj.
    replace (nth i (nth j m []) gq0) with (nth j (nth i m []) gq0); [apply close_refl|].
    assert (R : forall z : GQ, snd z = 0%Qc -> z = (fst z, 0%Qc)) by (intros [a b] H; cbn [fst snd] in *; congruence).
    rewrite (R (nth j (nth i m []) gq0)), (R (nth i (nth j m []) gq0)).
    + f_equal. apply D5; lia.
    + apply (ds_entry_ok m d); auto; lia.
    + apply (ds_entry_ok m d); auto; lia.
Qed.

Definition raw_weights (n : nat) (w : option (list Qc)) : list Qc :=
  match w with None => repeat 1%Qc n | Some w => w end.

Lemma total_repeat n : total (repeat 1%Qc n) = Q2Qc (inject_Z (Z.of_nat n)).
Proof.
  induction n as [|n IH]; [reflexivity|]. cbn [repeat total]. rewrite IH. apply Qc_is_canon.
  cbn [this Qcplus Q2Qc]. rewrite !Qred_correct. rewrite Nat2Z.inj_succ. unfold Z.succ. rewrite inject_Z_plus. 
  change (this 1%Qc) with 1%Q. change (inject_Z 1) with 1%Q. ring.
Qed.

Lemma raw_facts n w : weights_ok n w -> length (raw_weights n w) = n /\ 0 < n /\
  (forall x, In x (raw_weights n w) -> (0 <= x)%Qc) /\ (0 < total (raw_weights n w))%Qc.
Proof.
  destruct w as [w|]; cbn [weights_ok raw_weights]; intros H.
  - destruct H as (H1 & H2 & H3). split; auto. split; auto. destruct w; cbn [length] in H1; [|lia].
    exfalso. cbn [total] in H3. revert H3. apply Qcle_not_lt. apply Qcle_refl.
  - split; [apply repeat_length|]. split; auto. split.
    + intros x Hx. apply repeat_spec in Hx. subst x. discriminate.
    + rewrite total_repeat. qcq. change 0%Q with (inject_Z 0). rewrite <- Zlt_Qlt. lia.
Qed.

Definition normalised (n : nat) (w : option (list Qc)) : list Qc :=
  map (fun x => x / total (raw_weights n w))%Qc (raw_weights n w).

Lemma custom_new_ok o w : weights_ok (length (lo_ops gqS o)) w ->
  (forall m, In m (lo_ops gqS o) -> check_operator m = true) ->
  custom_new o w = Ok (Some (normalised (length (lo_ops gqS o)) w)).
Proof.
  intros Hw Hm. destruct (raw_facts _ _ Hw) as (R1 & R2 & R3 & R4). unfold custom_new.
  replace (forallb check_operator (lo_ops gqS o)) with true by (symmetry; apply forallb_forall; auto). cbn [negb].
  assert (E : match w with
      | Some w => if negb (Nat.eqb (length w) (length (lo_ops gqS o))) then Err ValueError
          else if Nat.eqb (length w) 0 then Err ValueError
          else if min_negative w then Err ValueError else Ok w
      | None => Ok (repeat 1%Qc (length (lo_ops gqS o))) end
     = Ok (raw_weights (length (lo_ops gqS o)) w)).
  { destruct w as [w|]; cbn [raw_weights]; auto. cbn [raw_weights] in R1, R3. rewrite R1, Nat.eqb_refl. cbn [negb].
    destruct (Nat.eqb_spec (length (lo_ops gqS o)) 0); [lia|].
    destruct (min_negative w) eqn:E; auto. unfold min_negative in E. apply existsb_exists in E.
    destruct E as (x & Hx & E). apply qc_ltb_lt in E. apply R3 in Hx. exfalso. revert E. apply Qcle_not_lt; auto. }
  rewrite E. cbn [bind]. rewrite R1. destruct (Nat.eqb_spec (length (lo_ops gqS o)) 0); [lia|].
  rewrite qsum_total.
  replace (qc_leb (total (raw_weights (length (lo_ops gqS o)) w)) 0%Qc) with false; [reflexivity|].
  symmetry. destruct (qc_leb _ 0%Qc) eqn:E1; auto. apply qc_leb_le in E1. exfalso. revert R4. apply Qcle_not_lt; auto.
Qed.

Lemma normalised_total n w : weights_ok n w -> total (normalised n w) = 1%Qc.
Proof.
  intros Hw. destruct (raw_facts _ _ Hw) as (R1 & R2 & R3 & R4). unfold normalised. rewrite total_scale.
  apply Qcmult_inv_r. intros C. rewrite C in R4. revert R4. apply Qcle_not_lt, Qcle_refl.
Qed.

Lemma normalised_nth n w i : weights_ok n w -> nth i (normalised n w) 0%Qc = move_weight n w i.
Proof.
  intros Hw. unfold normalised, move_weight. cbv zeta. fold (raw_weights n w).
  replace 0%Qc with ((fun x => x / total (raw_weights n w))%Qc 0%Qc) at 1 by (unfold Qcdiv; ring).
  rewrite (map_nth (fun x => x / total (raw_weights n w))%Qc). reflexivity.
Qed.

Lemma pick_drawn n w u : weights_ok n w -> (0 < u)%Qc -> (u <= 1)%Qc ->
  let i := pick_operator (custom_init (Some (normalised n w))) u in
  i < n /\ drawn (map (fun i => (i, move_weight n w i)) (seq 0 n)) u i.
Proof.
  intros Hw H0 H1. cbv zeta. cbn [custom_init option_map pick_operator].
  destruct (raw_facts _ _ Hw) as (R1 & R2 & R3 & R4).
  assert (HL : length (normalised n w) = n) by (unfold normalised; rewrite map_length; auto).
  destruct (first_spec (normalised n w) 0%Qc u H0) as (b & x & a & E1 & E2 & E3 & E4).
  { rewrite normalised_total by auto. replace (0 + 1)%Qc with 1%Qc by ring. auto. }
  rewrite E2. split.
  - rewrite <- HL, E1, app_length. cbn [length]. lia.
  - destruct (seq_split_map _ _ _ _ E1) as (b' & a' & G1 & G2). exists b', x, a'. rewrite HL in G1. split.
    + rewrite <- G1. apply map_ext. intros i. rewrite normalised_nth; auto.
    + rewrite G2. replace (0 + total b)%Qc with (total b) in * by ring. auto.
Qed.

(** ** one step *)
Section Step.
Variable hs : list (list Z).
Hypothesis Hs : sorted_space hs.
Variable ts : list (list (list GQ) * list nat).
Hypothesis Hok : moves_ok hs ts.
Variable w : option (list Qc).
Hypothesis Hw : weights_ok (length ts) w.

Definition row_of (o : GLop) (i : nat) (x : list Z) : list (list Z * GQ) :=
  match get_conn_filtered gqS hs o x i with Ok r => r | Err _ => [] end.

Lemma custom_step depth : exists o c law,
  mk_lop gqS (Datatypes.S depth) hs gq0 ts = Ok o /\ custom_new o w = Ok c /\ draws_rows hs ts law /\
  forall xs us vs, Forall (configuration hs) xs -> length us = length xs -> length vs = length xs ->
    (forall u, In u (us ++ vs) -> (0 < u)%Qc /\ (u < 1)%Qc) ->
    exists ys, custom_transition hs o (custom_init c) us vs xs = Ok (ys, repeat 0%Qc (length xs)) /\
      length ys = length xs /\
      forall b, b < length xs ->
        proposal_ok ts w law (nth b xs []) (nth b us 0%Qc) (nth b vs 0%Qc) (nth b ys []).
Proof.
  destruct (build_moves hs Hs ts Hok depth) as (o & E0 & Eo & Ea & Est & Ec).
  assert (HL : length (lo_ops gqS o) = length ts) by (rewrite Eo, map_length; auto).
  exists o, (Some (normalised (length ts) w)), (fun i x => law_of (row_of o i x)).
  split; [exact E0|]. split.
  { rewrite <- HL. apply custom_new_ok; [rewrite HL; exact Hw|]. intros m Hm. rewrite Eo in Hm.
    apply in_map_iff in Hm. destruct Hm as (t & <- & Ht).
    destruct (move_parts hs ts Hok t Ht) as (_ & _ & _ & Hd & D & _). eapply check_ds; eauto. }
  assert (Hrow : forall i x, i < length ts -> configuration hs x ->
     get_conn_filtered gqS hs o x i = Ok (row_of o i x) /\
     total (map snd (law_of (row_of o i x))) = 1%Qc /\
     (forall p, In p (law_of (row_of o i x)) -> configuration hs (fst p) /\ (0 <= snd p)%Qc) /\
     (forall z, configuration hs z -> mass (law_of (row_of o i x)) z = move_prob hs (nth i ts ([], [])) x z)).
  { intros i x Hi Hx. destruct (row_law hs Hs ts Hok o i x Est Ea Ec Hi Hx) as (row & G1 & G2).
    unfold row_of. rewrite G1. auto. }
  split. { intros i x Hi Hx. apply Hrow; auto. }
  intros xs us vs Hxs Lu Lv Huv. unfold custom_transition.
  set (pk := pick_operator (custom_init (Some (normalised (length ts) w)))).
  set (rows := map (fun p => row_of o (snd p) (fst p)) (combine xs (map pk us))).
  assert (Hu : forall u, In u us -> pk u < length ts /\
     drawn (map (fun i => (i, move_weight (length ts) w i)) (seq 0 (length ts))) u (pk u)).
  { intros u Hin. destruct (Huv u) as [U1 U2]; [apply in_app_iff; auto|].
    apply (pick_drawn (length ts) w u Hw U1). apply Qclt_le_weak; auto. }
  assert (Lr : length rows = length xs).
  { unfold rows. rewrite map_length, combine_length, map_length. lia. }
  assert (Nr : forall b, b < length xs -> nth b rows [] = row_of o (pk (nth b us 0%Qc)) (nth b xs [])).
  { intros b Hb. unfold rows.
    rewrite nth_indep with (d' := (fun p => row_of o (snd p) (fst p)) (@nil Z, pk 0%Qc)) by (fold rows; lia).
    rewrite (map_nth (fun p => row_of o (snd p) (fst p))). rewrite combine_nth by (rewrite map_length; lia).
    cbn [fst snd]. rewrite map_nth. reflexivity. }
  rewrite Forall_forall in Hxs.
  rewrite (sequence_ok _ (fun p => row_of o (snd p) (fst p))).
  2:{ intros [x i] Hin. cbn [fst snd]. apply Hrow.
      - apply in_combine_r in Hin. apply in_map_iff in Hin. destruct Hin as (u & <- & Hin). apply Hu; auto.
      - apply in_combine_l in Hin. auto. }
  cbn [bind]. fold rows. cbv zeta.
  destruct (choose_spec rows [] vs) as (ys & E1 & E2 & E3); [lia| |].
  { intros b Hb. rewrite Lr in Hb. rewrite Nr by auto.
    destruct (Huv (nth b vs 0%Qc)) as [V1 V2]; [apply in_app_iff; right; apply nth_In; lia|].
    split; auto. destruct (Hrow (pk (nth b us 0%Qc)) (nth b xs [])) as (_ & -> & _).
    - apply Hu. apply nth_In. lia.
    - apply Hxs. apply nth_In. auto.
    - apply Qclt_le_weak; auto. }
  cbn [app length] in E1.
  match goal with |- context [choose ?a ?b ?c ?d] => replace (choose a b c d) with (Ok ys) by (symmetry; exact E1) end.
  cbn [bind]. exists ys. split.
  { do 2 f_equal. clear. induction xs; cbn [map length repeat]; congruence. }
  split; [lia|]. intros b Hb. exists (pk (nth b us 0%Qc)). split.
  - apply Hu. apply nth_In. lia.
  - rewrite <- Nr by auto. apply E3. lia.
Qed.
End Step.

(** ** symmetry of the proposals *)
Lemma move_symmetric hs ts t x y : moves_ok hs ts -> In t ts -> configuration hs x -> configuration hs y ->
  move_prob hs t x y = move_prob hs t y x.
Proof.
  intros Hok Ht Hx Hy. destruct (move_parts hs ts Hok t Ht) as (_ & _ & Hsit & _ & D & _).
  unfold move_prob, term_element.
  rewrite (same_elsewhere_sym (snd t) x y)
    by (transitivity (length hs); [apply (Forall2_length _ _ _ Hx)|symmetry; apply (Forall2_length _ _ _ Hy)]).
  destruct (same_elsewhere (snd t) y x); auto.
  apply (ds_symmetric _ _ D); apply loc_index_lt; auto.
Qed.

Lemma step_symmetric hs ts w x y : moves_ok hs ts -> configuration hs x -> configuration hs y ->
  step_prob hs ts w x y = step_prob hs ts w y x.
Proof.
  intros Hok Hx Hy. unfold step_prob. f_equal. apply map_ext_in. intros i Hi. apply in_seq in Hi.
  f_equal. apply (move_symmetric hs ts); auto. apply nth_In. lia.
Qed.

(** ** what a constructed rule guarantees *)
Lemma within_abs (al be d e B : Qc) : (0 <= al)%Qc -> (0 <= be)%Qc -> (0 <= B)%Qc -> (e <= B * B)%Qc ->
  (d - al * al - be * be * e <= 0)%Qc \/
  ((d - al * al - be * be * e) * (d - al * al - be * be * e) <= (al * be + al * be) * (al * be + al * be) * e)%Qc ->
  (d <= (al + be * B) * (al + be * B))%Qc.
Proof.
  intros Ha Hb HB He H. qcq. destruct al as [al Ca], be as [be Cb], d as [d Cd], e as [e Ce], B as [B CB]. cbn [this] in *.
  clear Ca Cb Cd Ce CB.
  assert (Hab : (0 <= al * be)%Q) by (apply Qmult_le_0_compat; auto).
  assert (Hc : (0 <= al * be * B)%Q) by (apply Qmult_le_0_compat; auto).
  set (t := (d + - (al * al) + - (be * be * e))%Q) in *.
  assert (Hbe : (be * be * e <= be * be * (B * B))%Q).
  { rewrite !(Qmult_comm (be * be)). apply Qmult_le_compat_r; auto. apply Qmult_le_0_compat; auto. }
  assert (Ht : (t <= (2 # 1) * (al * be * B))%Q).
  { destruct H as [H|H]; [lra|].
    destruct (Qlt_le_dec ((2 # 1) * (al * be * B)) t) as [G|G]; [exfalso|auto].
    assert (G1 : (0 < (t - (2 # 1) * (al * be * B)) * (t + (2 # 1) * (al * be * B)))%Q)
      by (apply Qmult_lt_0_compat; lra).
    assert (G2 : ((al * be + al * be) * (al * be + al * be) * e <= (al * be + al * be) * (al * be + al * be) * (B * B))%Q).
    { rewrite !(Qmult_comm ((al * be + al * be) * (al * be + al * be))). apply Qmult_le_compat_r; auto.
      apply Qmult_le_0_compat; lra. }
    clearbody t. clear - G1 H G2. lra. }
  unfold t in Ht. clear - Ht Hbe. lra.
Qed.

Lemma close_within a b : gq_close a b = true -> within a b.
Proof.
  unfold gq_close, within. intros H B HB Hb. apply orb_true_iff in H. rewrite !qc_leb_le in H.
  assert (E1 : Q2Qc (1 # 10 ^ 16) = (Q2Qc (1 # 10 ^ 8) * Q2Qc (1 # 10 ^ 8))%Qc) by (apply Qc_is_canon; vm_compute; reflexivity).
  assert (E2 : Q2Qc (1 # 10 ^ 10) = (Q2Qc (1 # 10 ^ 5) * Q2Qc (1 # 10 ^ 5))%Qc) by (apply Qc_is_canon; vm_compute; reflexivity).
  assert (E3 : Q2Qc (4 # 10 ^ 26) =
    ((Q2Qc (1 # 10 ^ 8) * Q2Qc (1 # 10 ^ 5) + Q2Qc (1 # 10 ^ 8) * Q2Qc (1 # 10 ^ 5)) *
     (Q2Qc (1 # 10 ^ 8) * Q2Qc (1 # 10 ^ 5) + Q2Qc (1 # 10 ^ 8) * Q2Qc (1 # 10 ^ 5)))%Qc)
    by (apply Qc_is_canon; vm_compute; reflexivity).
  assert (P1 : (0 <= Q2Qc (1 # 10 ^ 8))%Qc) by (vm_compute; discriminate).
  assert (P2 : (0 <= Q2Qc (1 # 10 ^ 5))%Qc) by (vm_compute; discriminate).
  rewrite E1, E2, E3 in H. revert P1 P2 H. clear E1 E2 E3.
  generalize (Q2Qc (1 # 10 ^ 8)) as al. generalize (Q2Qc (1 # 10 ^ 5)) as be. intros be al P1 P2 H.
  apply (within_abs al be _ (gq_norm2 b)); auto.
Qed.

Lemma check_operator_sound m d : length m = d -> (forall r, In r m -> length r = d) ->
  check_operator m = true ->
  (forall r z, In r m -> In z r -> (0 <= fst z)%Qc /\ (snd z < Q2Qc (1 # 10 ^ 10))%Qc) /\
  (forall r, In r m -> within (total (map fst r), total (map snd r)) gq1) /\
  (forall j, j < d -> within (total (map (fun r => fst (nth j r gq0)) m), total (map (fun r => snd (nth j r gq0)) m)) gq1) /\
  (forall i j, i < d -> j < d -> within (nth j (nth i m []) gq0) (nth i (nth j m []) gq0)).
Proof.
  intros H1 H2 HC. unfold check_operator in HC.
  assert (Ec : ncolumns m = d).
  { destruct m as [|r m]; cbn [length] in H1; [auto|]. cbn [ncolumns]. apply H2. left; auto. }
  rewrite Ec, H1 in HC. rewrite !andb_true_iff in HC. destruct HC as ((((C1 & C2) & C3) & C4) & C5).
  rewrite forallb_forall in C1, C2, C3, C4, C5. split; [|split; [|split]].
  - intros r z Hr Hz. specialize (C1 r Hr). specialize (C2 r Hr). rewrite forallb_forall in C1, C2.
    specialize (C1 z Hz). specialize (C2 z Hz). apply qc_ltb_lt in C1. split; auto.
    unfold lex_nonneg in C2. apply orb_true_iff in C2. destruct C2 as [C2|C2].
    + apply qc_ltb_lt in C2. apply Qclt_le_weak; auto.
    + apply andb_true_iff in C2. destruct C2 as [C2 _]. apply qc_leb_le in C2. auto.
  - intros r Hr. rewrite <- gsum_parts. apply close_within. apply C4; auto.
  - intros j Hj. replace (_, _) with (gsum (column m j)); [apply close_within, C3, in_seq; lia|].
    rewrite gsum_parts. unfold column. rewrite !map_map. reflexivity.
  - intros i j Hi Hj. apply close_within. assert (G : In i (seq 0 d)) by (apply in_seq; lia).
    specialize (C5 i G). rewrite forallb_forall in C5. apply C5, in_seq. lia.
Qed.

Lemma custom_new_sound o w c : custom_new o w = Ok c ->
  (forall m, In m (lo_ops gqS o) -> check_operator m = true) /\
  match w with
  | Some w => length w = length (lo_ops gqS o) /\ forall x, In x w -> (0 <= x)%Qc
  | None => True
  end.
Proof.
  unfold custom_new. intros H. destruct (forallb check_operator (lo_ops gqS o)) eqn:E; cbn [negb] in H; [|discriminate].
  split; [apply forallb_forall; auto|]. destruct w as [w|]; auto.
  destruct (Nat.eqb_spec (length w) (length (lo_ops gqS o))) as [E1|E1]; cbn [negb] in H; [|discriminate].
  split; auto. intros x Hx. destruct (Nat.eqb (length w) 0); [discriminate|].
  destruct (min_negative w) eqn:E2; [discriminate|].
  apply Qcnot_lt_le. intros C. apply qc_ltb_lt in C.
  assert (G : min_negative w = true) by (apply existsb_exists; exists x; auto). congruence.
Qed.

Lemma custom_new_checked o w c : custom_new o w = Ok c ->
  (forall m, In m (lo_ops gqS o) -> (forall r, In r m -> length r = length m) ->
    (forall r z, In r m -> In z r -> (0 <= fst z)%Qc /\ (snd z < Q2Qc (1 # 10 ^ 10))%Qc) /\
    (forall r, In r m -> within (total (map fst r), total (map snd r)) gq1) /\
    (forall j, j < length m ->
       within (total (map (fun r => fst (nth j r gq0)) m), total (map (fun r => snd (nth j r gq0)) m)) gq1) /\
    (forall i j, i < length m -> j < length m ->
       within (nth j (nth i m []) gq0) (nth i (nth j m []) gq0))) /\
  match w with
  | Some w => length w = length (lo_ops gqS o) /\ forall x, In x w -> (0 <= x)%Qc
  | None => True
  end.
Proof.
  intros H. destruct (custom_new_sound o w c H) as [H1 H2]. split; [|exact H2].
  intros m Hm Hsq. apply check_operator_sound; auto.
Qed.
