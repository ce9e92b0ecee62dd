(** * Out-of-place operator expressions never write into existing arrays *)
From Coq Require Import ZArith List Bool Lia Permutation Sorting.Sorted.
From Verif Require Import Base BaseFacts Hilbert_Model Scalar LocalOp_Spec LocalOp_Model LocalOp_Facts
  LocalOp_Reorder LocalOp_Build LocalOp_Laws OpHeap_Model OpHeap_Spec.
Import ListNotations.

Section P.
Variable S : scalars.
Variable depth : nat.
Variable hs : list (list Z).
Notation heap := (heap S).
Notation hop := (hop S).

Definition key (act : list nat) : list nat := sort_sites act.

Lemma reorder_snd m act p : reorder S depth hs m act = Ok p -> snd p = sort_sites act.
Proof.
  unfold reorder. destruct (natlist_eqb (sort_sites act) act) eqn:E.
  - intros H; inversion H. cbn. apply natlist_eqb_eq in E. auto.
  - destruct (mk_Fock _ _ _ _); [|discriminate]. cbn [bind].
    destruct (fold_left _ _ _); [|discriminate]. cbn [bind].
    destruct (all_states _); [|discriminate]. cbn [bind].
    destruct (sequence _); [|discriminate]. cbn [bind].
    destruct (forallb _ _); [|discriminate]. intros H; inversion H. auto.
Qed.

Lemma reorder_id m act : natlist_eqb (sort_sites act) act = true -> reorder S depth hs m act = Ok (m, act).
Proof. intros E. unfold reorder. rewrite E. auto. Qed.

Record inv (n : nat) (h : heap) (o : hop) (sups : list (list nat)) : Prop := {
  i_len : length (ho_refs S o) = length (ho_act S o);
  i_refs : Forall (fun r => r < length h)%nat (ho_refs S o);
  i_act : NoDup (ho_act S o);
  i_sorted : Forall (fun a => key a = a) (ho_act S o);
  i_own : forall i, (i < length (ho_refs S o))%nat -> In (nth i (ho_act S o) []) sups ->
      (n <= nth i (ho_refs S o) O)%nat /\
      forall j, (j < length (ho_refs S o))%nat -> j <> i -> nth j (ho_refs S o) O <> nth i (ho_refs S o) O
}.

Definition same_below (n : nat) (h h' : heap) : Prop :=
  (length h <= length h')%nat /\ forall q, (q < n)%nat -> cell S h' q = cell S h q.

Lemma cell_app h l q : (q < length h)%nat -> cell S (h ++ l) q = cell S h q.
Proof. intros H. unfold cell. apply app_nth1. auto. Qed.
Lemma cell_new h c : cell S (h ++ [c]) (length h) = c.
Proof. unfold cell. rewrite app_nth2, Nat.sub_diag by lia. auto. Qed.
Lemma hget_app h l q : (q < length h)%nat -> hget S (h ++ l) q = hget S h q.
Proof. intros H. unfold hget. rewrite cell_app by auto. auto. Qed.
Lemma hget_new h c : hget S (h ++ [c]) (length h) = snd c.
Proof. unfold hget. rewrite cell_new. auto. Qed.

Lemma map_hget_app h l refs : Forall (fun r => r < length h)%nat refs ->
  map (hget S (h ++ l)) refs = map (hget S h) refs.
Proof. intros H. apply map_ext_in. intros r Hr. rewrite Forall_forall in H. apply hget_app; auto. Qed.

Lemma find_support_none_inv l act i : find_support l act i = None -> ~ In act l.
Proof.
  revert i. induction l as [|s l IH]; intros i H; simpl in H; [simpl; tauto|].
  destruct (natlist_eqb act s) eqn:E; [discriminate|]. simpl. intros [->|C]; [|exact (IH _ H C)].
  rewrite (proj2 (natlist_eqb_eq _ _) eq_refl) in E. discriminate.
Qed.

Lemma nth_map_lt {A B} (f : A -> B) l j d d' : (j < length l)%nat -> nth j (map f l) d = f (nth j l d').
Proof.
  intros H. rewrite (nth_indep _ d (f d')) by (rewrite map_length; auto). apply map_nth.
Qed.

Lemma map_hget_upd h refs i c : (i < length refs)%nat ->
  Forall (fun r => r < length h)%nat refs ->
  (forall j, (j < length refs)%nat -> j <> i -> nth j refs O <> nth i refs O) ->
  map (hget S (upd h (nth i refs O) c)) refs = upd (map (hget S h) refs) i (snd c).
Proof.
  intros Hi HF HU. apply nth_ext with (d := []) (d' := []).
  - rewrite upd_length, !map_length. auto.
  - intros j Hj. rewrite map_length in Hj.
    rewrite (nth_map_lt _ refs j _ O) by auto.
    destruct (Nat.eq_dec j i) as [->|Hn].
    + rewrite nth_upd_same by (rewrite map_length; auto). unfold hget, cell.
      rewrite nth_upd_same; auto. rewrite Forall_forall in HF. apply HF. apply nth_In; auto.
    + rewrite nth_upd_other by auto.
      rewrite (nth_map_lt _ refs j _ O) by auto. unfold hget, cell. rewrite nth_upd_other; auto.
      intros E. apply (HU j Hj Hn). auto.
Qed.

(** one step *)
Lemma hadd_operator_ok n h o r act sups h' o' :
  inv n h o (key act :: sups) -> (r < n)%nat -> (n <= length h)%nat -> ~ In (key act) sups ->
  hadd_operator S depth hs (h, o) r act = Ok (h', o') ->
  inv n h' o' sups /\ same_below n h h' /\
  add_operator S depth hs (snap S h o) (hget S h r) act = Ok (snap S h' o') /\
  exists l, ho_refs S o' = ho_refs S o ++ l /\
    (l = [] \/ l = [r] \/ exists q, l = [q] /\ (length h <= q)%nat).
Proof.
  intros HI Hr Hn Hk H. unfold hadd_operator in H. cbn [fst snd] in H.
  destruct (Nat.ltb _ _); [discriminate|].
  destruct (asarray S h r (ho_dtype S o)) as [h1 r1] eqn:EA. cbn [fst snd] in H.
  assert (A : exists l1, h1 = h ++ l1 /\ hget S h1 r1 = hget S h r /\ (r1 < length h1)%nat /\
              (r1 = r \/ (length h <= r1)%nat)).
  { unfold asarray in EA. destruct (Nat.eqb _ _); inversion EA; subst.
    - exists []. rewrite app_nil_r. repeat split; auto; lia.
    - eexists. split; [reflexivity|]. rewrite hget_new. cbn. rewrite app_length. cbn. repeat split; auto; lia. }
  destruct A as (l1 & -> & Eg1 & Hr1 & Hr1'). clear EA.
  unfold add_operator.
  destruct (nodupb act) eqn:End; [|discriminate]. cbn [negb] in *.
  destruct (existsb (fun s => (length hs <=? s)%nat) act); [discriminate|].
  rewrite <- Eg1.
  destruct (forallb (forallb (fun k => negb (kbige S k))) (hget S (h ++ l1) r1)).
  { inversion H; subst. destruct HI as [I1 I2 I3 I4 I5]. split; [|split; [|split]].
    - constructor; auto.
      + eapply Forall_impl; [|exact I2]. cbn. intros a Ha. rewrite app_length. lia.
      + intros i Hi Hin. apply I5; auto. right. auto.
    - split; [rewrite app_length; lia|]. intros q Hq. apply cell_app. lia.
    - unfold snap. rewrite map_hget_app by auto. reflexivity.
    - exists []. rewrite app_nil_r. auto. }
  destruct (reorder S depth hs (hget S (h ++ l1) r1) act) as [p|] eqn:ER;
    [|unfold hreorder in H; rewrite ER in H; discriminate].
  cbn [bind] in *. pose proof (reorder_snd _ _ _ ER) as Esnd.
  assert (B : exists l2 r2, hreorder S depth hs (h ++ l1) r1 act
              = Ok (h ++ l2, r2, sort_sites act) /\ hget S (h ++ l2) r2 = fst p /\ (r2 < length (h ++ l2))%nat /\
              (r2 = r \/ (length h <= r2)%nat)).
  { unfold hreorder. rewrite ER. cbn [bind]. destruct (natlist_eqb (sort_sites act) act) eqn:E.
    - exists l1, r1. rewrite (reorder_id _ _ E) in ER. inversion ER; subst p. cbn.
      apply natlist_eqb_eq in E. rewrite E. auto.
    - eexists. exists (length (h ++ l1)). rewrite <- app_assoc, Esnd. split; [reflexivity|].
      rewrite app_assoc, hget_new. cbn. rewrite !app_length. cbn. split; auto. split; [lia|].
      right. lia. }
  destruct B as (l2 & r2 & EB & Eg2 & Hr2 & Hr2'). rewrite EB in H. clear EB. cbn [bind fst snd] in H.
  rewrite Esnd. destruct HI as [I1 I2 I3 I4 I5].
  assert (Hrefs2 : Forall (fun r => r < length (h ++ l2))%nat (ho_refs S o)).
  { eapply Forall_impl; [|exact I2]. cbn. intros a Ha. rewrite app_length. lia. }
  cbn [lo_act snap].
  destruct (find_support (ho_act S o) (sort_sites act) 0) as [i|] eqn:EF.
  - apply find_support_spec in EF. destruct EF as (_ & Hi & EFi). rewrite Nat.sub_0_r in *.
    rewrite <- I1 in Hi. destruct (I5 i Hi) as [Own Uniq]; [left; rewrite EFi; reflexivity|].
    set (t := nth i (ho_refs S o) O) in *.
    assert (Ht : (t < length h)%nat) by (rewrite Forall_forall in I2; apply I2; apply nth_In; auto).
    rewrite Eg2 in H. unfold snap at 1. cbn [lo_ops].
    assert (Em : nth i (map (hget S h) (ho_refs S o)) [] = hget S (h ++ l2) t).
    { rewrite (nth_map_lt _ _ i _ O) by auto. fold t. rewrite hget_app by auto. auto. }
    rewrite Em. destruct (append_matrix S _ _) as [dc|]; [|discriminate]. cbn [bind] in *.
    inversion H; subst h' o'; clear H.
    assert (Eu : map (hget S (upd (h ++ l2) t (fst (cell S (h ++ l2) t), add_block S (hget S (h ++ l2) t) (fst p)))) (ho_refs S o)
                 = upd (map (hget S h) (ho_refs S o)) i (add_block S (hget S (h ++ l2) t) (fst p))).
    { unfold t at 1. rewrite map_hget_upd by auto. rewrite map_hget_app by auto. reflexivity. }
    split; [|split; [|split]].
    + constructor; unfold hrefresh, hset_nzd; cbn [ho_refs ho_act]; auto.
      * eapply Forall_impl; [|exact Hrefs2]. cbn. intros a Ha. rewrite upd_length. auto.
      * intros j Hj Hin. apply I5; auto. right; auto.
    + split; [rewrite upd_length, app_length; lia|]. intros q Hq. unfold cell.
      rewrite nth_upd_other by lia. apply cell_app. lia.
    + unfold snap, hrefresh, hset_nzd, set_nzd, has_nonzero_diagonal.
      cbn [ho_refs ho_act ho_diag ho_conn ho_const ho_nzd ho_herm lo_diag lo_const lo_ops lo_act lo_conn lo_herm].
      rewrite Eu, <- Em. reflexivity.
    + exists []. rewrite app_nil_r. auto.
  - rewrite Eg2 in H. destruct (negb _); [discriminate|].
    destruct (append_matrix S (fst p) _) as [dc|]; [|discriminate]. cbn [bind] in *.
    inversion H; subst h' o'; clear H.
    assert (Em : map (hget S (h ++ l2)) (ho_refs S o ++ [r2]) = map (hget S h) (ho_refs S o) ++ [fst p]).
    { rewrite map_app, map_hget_app by auto. cbn [map]. rewrite Eg2. auto. }
    split; [|split; [|split]].
    + constructor; unfold hrefresh, hset_nzd; cbn [ho_refs ho_act].
      * rewrite !app_length, I1. auto.
      * apply Forall_app. split; auto.
      * apply find_support_none_inv in EF.
        apply (Permutation_NoDup (l := sort_sites act :: ho_act S o)); [apply Permutation_cons_append|].
        constructor; auto.
      * apply Forall_app. split; auto. constructor; auto. unfold key.
        apply sort_sites_id. apply sort_sites_sorted. apply nodupb_spec; auto.
      * intros j Hj Hin. rewrite app_length in Hj. cbn in Hj.
        destruct (Nat.eq_dec j (length (ho_refs S o))) as [->|Hjn].
        -- exfalso. rewrite I1, app_nth2, Nat.sub_diag in Hin by lia. cbn in Hin. auto.
        -- assert (Hj' : (j < length (ho_refs S o))%nat) by lia.
           rewrite app_nth1 in Hin by lia. rewrite (app_nth1 _ _ O Hj').
           destruct (I5 j Hj' (or_intror Hin)) as [O1 O2]. split; auto.
           intros k Hk2 Hkj. rewrite app_length in Hk2. cbn in Hk2.
           destruct (Nat.eq_dec k (length (ho_refs S o))) as [->|Hkn].
           ++ rewrite app_nth2, Nat.sub_diag by lia. cbn.
              assert (nth j (ho_refs S o) O < length h)%nat by (rewrite Forall_forall in I2; apply I2; apply nth_In; auto).
              lia.
           ++ rewrite app_nth1 by lia. apply O2; auto. lia.
    + split; [rewrite app_length; lia|]. intros q Hq. apply cell_app. lia.
    + unfold snap, hrefresh, hset_nzd, set_nzd, has_nonzero_diagonal.
      cbn [ho_refs ho_act ho_diag ho_conn ho_const ho_nzd ho_herm lo_diag lo_const lo_ops lo_act lo_conn lo_herm].
      rewrite Em. reflexivity.
    + exists [r2]. split; auto. right. destruct Hr2' as [->|Hr2']; [left; auto|right; eauto].
Qed.

Lemma hadd_operators_cons st t ts :
  hadd_operators S depth hs st (t :: ts)
  = (let? a := hadd_operator S depth hs st (fst t) (snd t) in hadd_operators S depth hs a ts).
Proof.
  unfold hadd_operators. cbn [fold_left bind]. destruct (hadd_operator S depth hs st (fst t) (snd t)); auto.
  cbn [bind]. induction ts as [|t' ts IH]; cbn [fold_left bind]; auto.
Qed.

Lemma padd_operators_cons (o : lop S) t ts :
  add_operators S depth hs o (t :: ts)
  = (let? a := add_operator S depth hs o (fst t) (snd t) in add_operators S depth hs a ts).
Proof.
  unfold add_operators. cbn [fold_left bind]. destruct (add_operator S depth hs o (fst t) (snd t)); auto.
  cbn [bind]. induction ts as [|t' ts IH]; cbn [fold_left bind]; auto.
Qed.

Lemma hadd_operators_ok n ts : forall h o h' o',
  inv n h o (map (fun t => key (snd t)) ts) -> Forall (fun t => fst t < n)%nat ts -> (n <= length h)%nat ->
  NoDup (map (fun t => key (snd t)) ts) ->
  hadd_operators S depth hs (h, o) ts = Ok (h', o') ->
  inv n h' o' [] /\ same_below n h h' /\
  add_operators S depth hs (snap S h o) (map (fun t => (hget S h (fst t), snd t)) ts) = Ok (snap S h' o') /\
  (NoDup (ho_refs S o ++ map fst ts) -> NoDup (ho_refs S o')) /\
  (forall lo, (lo <= length h)%nat -> Forall (fun q => lo <= q)%nat (ho_refs S o ++ map fst ts) ->
     Forall (fun q => lo <= q)%nat (ho_refs S o')).
Proof.
  induction ts as [|t ts IH]; intros h o h' o' HI HF Hn HN H.
  - cbn in H. inversion H; subst. cbn [map]. rewrite app_nil_r. split; auto. split; [split; auto|].
    split; [reflexivity|]. auto.
  - rewrite hadd_operators_cons in H. cbn [map] in *.
    destruct (hadd_operator S depth hs (h, o) (fst t) (snd t)) as [[h1 o1]|] eqn:E1; [|discriminate].
    cbn [bind] in H. inversion HF as [|? ? F1 F2]; subst. inversion HN as [|? ? N1 N2]; subst.
    destruct (hadd_operator_ok n h o (fst t) (snd t) _ h1 o1 HI F1 Hn N1 E1) as (I1 & [L1 C1] & P1 & l & El & Hl).
    destruct (IH h1 o1 h' o' I1 F2) as (I2 & [L2 C2] & P2 & ND & LB); auto; [lia|].
    split; auto. split; [split; [lia|]; intros q Hq; rewrite C2, C1; auto|].
    split; [|split].
    + rewrite padd_operators_cons. cbn [fst snd]. rewrite P1. cbn [bind]. rewrite <- P2. f_equal.
      apply map_ext_in. intros t' Ht'. rewrite Forall_forall in F2. unfold hget. rewrite C1 by (apply F2; auto). auto.
    + intros HND. apply ND. rewrite El.
      assert (P0 : NoDup (fst t :: ho_refs S o ++ map fst ts)).
      { apply (Permutation_NoDup (l := ho_refs S o ++ fst t :: map fst ts)); [|exact HND].
        symmetry. apply Permutation_middle. }
      inversion P0 as [|? ? Q1 Q2]; subst.
      destruct Hl as [->|[->|(q & -> & Hq)]].
      * rewrite app_nil_r. auto.
      * rewrite <- app_assoc. exact HND.
      * rewrite <- app_assoc. cbn [app].
        apply (Permutation_NoDup (l := q :: ho_refs S o ++ map fst ts)); [apply Permutation_middle|].
        constructor; auto. intros C. apply in_app_iff in C. destruct C as [C|C].
        -- destruct HI as [_ HR _ _ _]. rewrite Forall_forall in HR. apply HR in C. lia.
        -- apply in_map_iff in C. destruct C as (t' & <- & C). rewrite Forall_forall in F2. apply F2 in C. lia.
    + intros lo Hlo HB. apply LB; [lia|]. apply Forall_app in HB. destruct HB as [B1 B2].
      inversion B2; subst. rewrite El. rewrite <- app_assoc. apply Forall_app. split; auto.
      apply Forall_app. split; auto.
      destruct Hl as [->|[->|(q & -> & Hq)]]; constructor; auto; lia.
Qed.

(** an operator that lives in a heap *)
Definition live (h : heap) (o : hop) : Prop := inv O h o [].

Lemma inv_live n h o sups : inv n h o sups -> live h o.
Proof. intros [I1 I2 I3 I4 _]. constructor; auto. intros i Hi []. Qed.

Lemma live_same h h' o : live h o -> same_below (length h) h h' -> live h' o /\ snap S h' o = snap S h o.
Proof.
  intros [I1 I2 I3 I4 I5] [Hl HC]. split.
  - constructor; auto. eapply Forall_impl; [|exact I2]. cbn. intros; lia.
  - unfold snap. f_equal. apply map_ext_in. intros r Hr. rewrite Forall_forall in I2. unfold hget. rewrite HC; auto.
Qed.

Definition nonempty_t {A} (ts : list (A * list nat)) : list (A * list nat) :=
  filter (fun t => match snd t with [] => false | _ => true end) ts.

Lemma nonempty_map {A B} (f : A * list nat -> B) ts :
  filter (fun t : B * list nat => match snd t with [] => false | _ => true end) (map (fun t => (f t, snd t)) ts)
  = map (fun t => (f t, snd t)) (nonempty_t ts).
Proof.
  induction ts as [|t ts IH]; auto. unfold nonempty_t in *. cbn [map filter snd].
  destruct (snd t) eqn:E; auto. cbn [map]. rewrite E. f_equal; auto.
Qed.

Lemma hmk_ok h dt c ts h' o' :
  Forall (fun t => fst t < length h)%nat ts ->
  NoDup (map (fun t => key (snd t)) (nonempty_t ts)) ->
  hmk S depth hs h dt c ts = Ok (h', o') ->
  live h' o' /\ same_below (length h) h h' /\
  mk_lop S depth hs c (map (fun t => (hget S h (fst t), snd t)) ts) = Ok (snap S h' o') /\
  (NoDup (map fst (nonempty_t ts)) -> NoDup (ho_refs S o')) /\
  (forall lo, (lo <= length h)%nat -> Forall (fun q => lo <= q)%nat (map fst (nonempty_t ts)) ->
     Forall (fun q => lo <= q)%nat (ho_refs S o')).
Proof.
  intros HF HN H. unfold hmk in H. unfold mk_lop. destruct (negb _); [discriminate|].
  rewrite (nonempty_map (fun t => hget S h (fst t))).
  fold (@nonempty_t nat ts) in H.
  apply hadd_operators_ok with (n := length h) in H; auto.
  - cbn [ho_refs app] in H. destruct H as (H1 & H2 & H3 & H4 & H5).
    split; [eapply inv_live; eauto|]. split; auto.
  - constructor; cbn; auto; try (constructor; fail). intros i Hi; lia.
  - rewrite Forall_forall in *. intros t Ht. apply filter_In in Ht. apply HF. tauto.
Qed.

(** fresh arrays *)
Lemma nonempty_incl {A} (ts : list (A * list nat)) : exists keep, nonempty_t ts = filter keep ts.
Proof. eexists. reflexivity. Qed.

Lemma NoDup_filter_map {A B} (f : A -> B) (p : A -> bool) l : NoDup (map f l) -> NoDup (map f (filter p l)).
Proof.
  induction l as [|a l IH]; cbn; auto. intros H. inversion H; subst. destruct (p a); cbn; auto.
  constructor; auto. intros C. apply H2. apply in_map_iff in C. destruct C as (x & E & C).
  apply filter_In in C. apply in_map_iff. exists x. tauto.
Qed.

Lemma map_fst_combine' {A B} (a : list A) : forall (b : list B), length a = length b -> map fst (combine a b) = a.
Proof. induction a; destruct b; simpl; intros; try discriminate; auto. f_equal; auto. Qed.
Lemma map_snd_combine' {A B} (a : list A) : forall (b : list B), length a = length b -> map snd (combine a b) = b.
Proof. induction a; destruct b; simpl; intros; try discriminate; auto. f_equal; auto. Qed.

Lemma halloc_get f h refs (acts : list (list nat)) :
  map (fun t => (hget S (h ++ map (fun r => (fst (cell S h r), f (hget S h r))) refs) (fst t), snd t))
      (combine (seq (length h) (length refs)) acts)
  = map (fun t => (f (fst t), snd t)) (combine (map (hget S h) refs) acts).
Proof.
  assert (G : forall g, (forall k, (k < length refs)%nat -> g (length h + k)%nat = f (hget S h (nth k refs O))) ->
     map (fun t => (g (fst t), snd t)) (combine (seq (length h) (length refs)) acts)
     = map (fun t => (f (fst t), snd t)) (combine (map (hget S h) refs) acts)).
  { generalize (length h). revert acts. induction refs as [|r refs IH]; intros acts n g Hg; auto.
    destruct acts as [|a acts]; auto. cbn [length seq combine map fst snd]. f_equal.
    - f_equal. rewrite <- (Nat.add_0_r n). rewrite (Hg O) by (cbn; lia). reflexivity.
    - apply IH. intros k Hk. replace (Datatypes.S n + k)%nat with (n + Datatypes.S k)%nat by lia.
      rewrite Hg by (cbn; lia). reflexivity. }
  apply G. intros k Hk. unfold hget at 1, cell. rewrite app_nth2_plus.
  rewrite (nth_map_lt _ _ k _ O) by auto. reflexivity.
Qed.

Lemma halloc_mk f h o dt c h' o' : live h o ->
  hmk S depth hs (fst (halloc S f h o)) dt c (snd (halloc S f h o)) = Ok (h', o') ->
  live h' o' /\ same_below (length h) h h' /\
  mk_lop S depth hs c (map (fun t => (f (fst t), snd t)) (terms_of S (snap S h o))) = Ok (snap S h' o') /\
  NoDup (ho_refs S o') /\ Forall (fun q => length h <= q)%nat (ho_refs S o').
Proof.
  intros [I1 I2 I3 I4 _] H. unfold halloc in H. cbn [fst snd] in H.
  set (h1 := h ++ map (fun r => (fst (cell S h r), f (hget S h r))) (ho_refs S o)) in *.
  assert (Hlen : length h1 = (length h + length (ho_refs S o))%nat) by (unfold h1; rewrite app_length, map_length; auto).
  assert (Eseq : length (seq (length h) (length (ho_refs S o))) = length (ho_act S o)) by (rewrite seq_length; auto).
  apply hmk_ok in H.
  - destruct H as (H1 & [H2 H2'] & H3 & H4 & H5). split; auto. split; [|split; [|split]].
    + split; [lia|]. intros q Hq. rewrite H2' by lia. unfold h1. apply cell_app; auto.
    + rewrite <- H3. f_equal. unfold terms_of, snap. cbn [lo_ops lo_act]. unfold h1. rewrite halloc_get. auto.
    + apply H4. apply NoDup_filter_map. rewrite map_fst_combine' by auto. apply seq_NoDup.
    + apply H5; [lia|]. apply Forall_map. apply Forall_forall. intros t Ht. apply filter_In in Ht.
      destruct Ht as [Ht _]. destruct t as [q a]. apply in_combine_l in Ht. apply in_seq in Ht. cbn. lia.
  - apply Forall_forall. intros [q a] Ht. apply in_combine_l in Ht. apply in_seq in Ht. cbn. lia.
  - apply NoDup_filter_map.
    replace (map (fun t : nat * list nat => key (snd t)) (combine (seq (length h) (length (ho_refs S o))) (ho_act S o)))
      with (ho_act S o); auto.
    rewrite <- (map_map snd key), map_snd_combine' by auto.
    clear - I4. induction I4 as [|a l H _ IH]; cbn; auto. rewrite H. f_equal; auto.
Qed.

Lemma hcopy_ok h o dt h' o' : live h o -> hcopy S depth hs h o dt = Ok (h', o') ->
  live h' o' /\ same_below (length h) h h' /\ copy S depth hs (snap S h o) = Ok (snap S h' o') /\
  NoDup (ho_refs S o') /\ Forall (fun q => length h <= q)%nat (ho_refs S o').
Proof.
  intros HL H. unfold hcopy in H. apply halloc_mk in H; auto.
  destruct H as (H1 & H2 & H3 & H4). split; auto. split; auto. split; auto.
  unfold copy. rewrite <- H3. f_equal.
  transitivity (map (fun t : mat S * list nat => t) (terms_of S (snap S h o))); [symmetry; apply map_id|].
  apply map_ext. intros [a b]; auto.
Qed.

Lemma same_below_trans n h1 h2 h3 : same_below n h1 h2 -> same_below n h2 h3 -> same_below n h1 h3.
Proof. intros [A1 A2] [B1 B2]. split; [lia|]. intros q Hq. rewrite B2, A2; auto. Qed.
Lemma same_below_le n m h1 h2 : (n <= m)%nat -> same_below m h1 h2 -> same_below n h1 h2.
Proof. intros H [A1 A2]. split; auto. intros q Hq. apply A2. lia. Qed.

(** a + b *)
Lemma hadd_ok h a b h' o' : live h a -> live h b -> hadd S depth hs h a b = Ok (h', o') ->
  live h' o' /\ same_below (length h) h h' /\ add S depth hs (snap S h a) (snap S h b) = Ok (snap S h' o').
Proof.
  intros La Lb H. unfold hadd in H.
  destruct (hcopy S depth hs h a _) as [[h1 c]|] eqn:EC; [|discriminate]. cbn [bind fst snd] in H.
  apply hcopy_ok in EC; auto. destruct EC as (Lc & SB & PC & ND & LB).
  unfold hiadd in H. destruct (Nat.ltb _ _); [discriminate|].
  destruct (hadd_operators S depth hs (h1, c) _) as [[h2 o2]|] eqn:EA; [|discriminate].
  cbn [bind fst snd] in H. inversion H; subst h' o'; clear H.
  destruct Lb as [B1 B2 B3 B4 _]. destruct Lc as [C1 C2 C3 C4 _].
  apply hadd_operators_ok with (n := length h) in EA.
  - destruct EA as (I2 & SB2 & PA & _). destruct I2 as [J1 J2 J3 J4 J5].
    split; [constructor; auto; intros i Hi []|]. split; [eapply same_below_trans; eauto|].
    unfold add. rewrite PC. cbn [bind]. unfold iadd.
    assert (ET : map (fun t => (hget S h1 (fst t), snd t)) (combine (ho_refs S b) (ho_act S b)) = terms_of S (snap S h b)).
    { unfold terms_of, snap. cbn [lo_ops lo_act]. destruct SB as [_ SC]. clear - B2 SC.
      generalize (ho_act S b). induction B2 as [|r l H _ IH]; intros acts; cbn; auto. destruct acts as [|x acts]; auto.
      cbn. f_equal; auto. unfold hget. rewrite SC by auto. auto. }
    rewrite <- ET, PA. cbn [bind].
    unfold snap, hrefresh, hset_nzd, hset_const, set_nzd, set_const, has_nonzero_diagonal.
    cbn [ho_refs ho_act ho_diag ho_conn ho_const ho_nzd ho_herm lo_diag lo_const lo_ops lo_act lo_conn lo_herm snap].
    reflexivity.
  - constructor; auto. intros i Hi _. split.
    + rewrite Forall_forall in LB. apply LB. apply nth_In; auto.
    + intros j Hj Hn E. apply Hn. apply (proj1 (NoDup_nth _ O) ND); auto.
  - apply Forall_forall. intros [r x] Ht. apply in_combine_l in Ht. cbn. rewrite Forall_forall in B2. auto.
  - destruct SB; auto.
  - replace (map (fun t : nat * list nat => key (snd t)) (combine (ho_refs S b) (ho_act S b))) with (ho_act S b); auto.
    rewrite <- (map_map snd key), map_snd_combine' by auto.
    clear - B4. induction B4 as [|x l H _ IH]; cbn; auto. rewrite H. f_equal; auto.
Qed.

Lemma hadd_number_ok h a dt x h' o' : live h a -> hadd_number S depth hs h a dt x = Ok (h', o') ->
  live h' o' /\ same_below (length h) h h' /\ add_number S depth hs (snap S h a) x = Ok (snap S h' o').
Proof.
  intros La H. unfold hadd_number in H.
  destruct (hcopy S depth hs h a _) as [[h1 c]|] eqn:EC; [|discriminate]. cbn [bind fst snd] in H.
  apply hcopy_ok in EC; auto. destruct EC as (Lc & SB & PC & ND & LB).
  unfold hiadd_number in H. destruct (Nat.ltb _ _); [discriminate|]. inversion H; subst; clear H.
  split; [destruct Lc; constructor; auto|]. split; auto.
  unfold add_number. rewrite PC. reflexivity.
Qed.

(** scaling *)
Lemma hscale_fold c refs : forall h, NoDup refs -> Forall (fun r => r < length h)%nat refs ->
  length (fold_left (hscale S c) refs h) = length h /\
  (forall q, ~ In q refs -> cell S (fold_left (hscale S c) refs h) q = cell S h q) /\
  map (hget S (fold_left (hscale S c) refs h)) refs = map (scale_mat S c) (map (hget S h) refs).
Proof.
  induction refs as [|r refs IH]; intros h ND HF; [repeat split; auto|].
  inversion ND as [|? ? N1 N2]; subst. inversion HF as [|? ? F1 F2]; subst. cbn [fold_left].
  set (h1 := hscale S c h r).
  assert (L1 : length h1 = length h) by (unfold h1, hscale; apply upd_length).
  destruct (IH h1 N2) as (A1 & A2 & A3).
  { eapply Forall_impl; [|exact F2]. cbn. intros. lia. }
  split; [lia|]. split.
  - intros q Hq. rewrite A2 by (intros C; apply Hq; right; auto). unfold h1, hscale, cell.
    rewrite nth_upd_other; auto. intros E. apply Hq. left; auto.
  - cbn [map]. f_equal.
    + unfold hget. rewrite A2 by auto. unfold h1, hscale, cell. rewrite nth_upd_same by auto. reflexivity.
    + rewrite A3. f_equal. apply map_ext_in. intros q Hq. unfold hget, h1, hscale, cell.
      rewrite nth_upd_other; auto. intros E. subst. auto.
Qed.

Lemma hmul_ok h a dt c h' o' : live h a -> hmul S depth hs h a dt c = Ok (h', o') ->
  live h' o' /\ same_below (length h) h h' /\ mul_number S depth hs (snap S h a) c = Ok (snap S h' o').
Proof.
  intros La H. unfold hmul in H.
  destruct (hcopy S depth hs h a _) as [[h1 b]|] eqn:EC; [|discriminate]. cbn [bind fst snd] in H.
  apply hcopy_ok in EC; auto. destruct EC as ([C1 C2 C3 C4 _] & [SL SC] & PC & ND & LB).
  unfold himul in H. inversion H; subst h' o'; clear H.
  destruct (hscale_fold c (ho_refs S b) h1 ND C2) as (E1 & E2 & E3).
  split; [|split].
  - constructor; unfold hrefresh, hset_nzd; cbn [ho_refs ho_act]; auto; [|intros i Hi []].
    eapply Forall_impl; [|exact C2]. cbn. intros. lia.
  - split; [lia|]. intros q Hq. rewrite E2; [apply SC; auto|].
    intros C. rewrite Forall_forall in LB. apply LB in C. lia.
  - unfold mul_number. rewrite PC. cbn [bind].
    unfold imul_number, snap, hrefresh, hset_nzd, set_nzd, has_nonzero_diagonal.
    cbn [ho_refs ho_act ho_diag ho_conn ho_const ho_nzd ho_herm lo_diag lo_const lo_ops lo_act lo_conn lo_herm snap].
    rewrite E3. reflexivity.
Qed.

(** all terms of a constructor call act on different sets of sites *)
Fixpoint disjoint_terms (n : nat) (e : hexpr S) : Prop :=
  match e with
  | HNew _ _ ts => Forall (fun t => fst t < n)%nat ts /\
                   NoDup (map (fun t => sort_sites (snd t)) (nonempty_t ts))
  | HPlus _ a b | HMinus _ a b => disjoint_terms n a /\ disjoint_terms n b
  | HPlusNum _ a _ _ | HTimes _ a _ _ | HNeg _ a | HTransp _ a | HConj _ a => disjoint_terms n a
  end.

Lemma heval_ok h0 e : forall h h' o,
  same_below (length h0) h0 h -> disjoint_terms (length h0) e ->
  heval S depth hs h e = Ok (h', o) ->
  live h' o /\ same_below (length h) h h' /\ build S depth hs (erase S h0 e) = Ok (snap S h' o).
Proof.
  induction e as [c ts|a IHa b IHb|a IHa dt c|a IHa dt c|a IHa|a IHa b IHb|a IHa|a IHa];
    intros h h' o SB HD H; cbn [heval erase build disjoint_terms] in *.
  - destruct HD as [HD1 HD2]. apply hmk_ok in H.
    + destruct H as (H1 & H2 & H3 & _). split; auto. split; auto. rewrite <- H3. f_equal.
      apply map_ext_in. intros t Ht. rewrite Forall_forall in HD1. destruct SB as [_ SB].
      unfold hget. rewrite SB; auto.
    + eapply Forall_impl; [|exact HD1]. cbn. destruct SB. intros; lia.
    + exact HD2.
  - destruct HD as [D1 D2].
    destruct (heval S depth hs h a) as [[h1 oa]|] eqn:Ea; [|discriminate]. cbn [bind fst snd] in H.
    destruct (heval S depth hs h1 b) as [[h2 ob]|] eqn:Eb; [|discriminate]. cbn [bind fst snd] in H.
    destruct (IHa h h1 oa SB D1 Ea) as (La & SB1 & Pa).
    assert (SB1' : same_below (length h0) h0 h1).
    { eapply same_below_trans; [exact SB|]. eapply same_below_le; [|exact SB1]. destruct SB; auto. }
    destruct (IHb h1 h2 ob SB1' D2 Eb) as (Lb & SB2 & Pb).
    destruct (live_same h1 h2 oa La SB2) as [La2 Es].
    destruct (hadd_ok h2 oa ob h' o La2 Lb H) as (Lo & SB3 & Po).
    split; auto. split.
    + eapply same_below_trans; [exact SB1|]. eapply same_below_trans; [eapply same_below_le; [|exact SB2]; destruct SB1; auto|].
      eapply same_below_le; [|exact SB3]. destruct SB1, SB2; lia.
    + rewrite Pa, Pb. cbn [bind]. rewrite <- Es. exact Po.
  - destruct (heval S depth hs h a) as [[h1 oa]|] eqn:Ea; [|discriminate]. cbn [bind fst snd] in H.
    destruct (IHa h h1 oa SB HD Ea) as (La & SB1 & Pa).
    destruct (hadd_number_ok h1 oa dt c h' o La H) as (Lo & SB2 & Po).
    split; auto. split; [|rewrite Pa; exact Po].
    eapply same_below_trans; [exact SB1|]. eapply same_below_le; [|exact SB2]. destruct SB1; auto.
  - destruct (heval S depth hs h a) as [[h1 oa]|] eqn:Ea; [|discriminate]. cbn [bind fst snd] in H.
    destruct (IHa h h1 oa SB HD Ea) as (La & SB1 & Pa).
    destruct (hmul_ok h1 oa dt c h' o La H) as (Lo & SB2 & Po).
    split; auto. split; [|rewrite Pa; exact Po].
    eapply same_below_trans; [exact SB1|]. eapply same_below_le; [|exact SB2]. destruct SB1; auto.
  - destruct (heval S depth hs h a) as [[h1 oa]|] eqn:Ea; [|discriminate]. cbn [bind fst snd] in H.
    destruct (IHa h h1 oa SB HD Ea) as (La & SB1 & Pa).
    destruct (hmul_ok h1 oa _ _ h' o La H) as (Lo & SB2 & Po).
    split; auto. split; [|rewrite Pa; exact Po].
    eapply same_below_trans; [exact SB1|]. eapply same_below_le; [|exact SB2]. destruct SB1; auto.
  - destruct HD as [D1 D2].
    destruct (heval S depth hs h a) as [[h1 oa]|] eqn:Ea; [|discriminate]. cbn [bind fst snd] in H.
    destruct (heval S depth hs h1 b) as [[h2 ob]|] eqn:Eb; [|discriminate]. cbn [bind fst snd] in H.
    destruct (IHa h h1 oa SB D1 Ea) as (La & SB1 & Pa).
    assert (SB1' : same_below (length h0) h0 h1).
    { eapply same_below_trans; [exact SB|]. eapply same_below_le; [|exact SB1]. destruct SB; auto. }
    destruct (IHb h1 h2 ob SB1' D2 Eb) as (Lb & SB2 & Pb).
    unfold hsub in H. destruct (hneg S depth hs h2 ob) as [[h3 nb]|] eqn:En; [|discriminate]. cbn [bind fst snd] in H.
    destruct (hmul_ok h2 ob _ _ h3 nb Lb En) as (Ln & SB3 & Pn).
    assert (SB13 : same_below (length h1) h1 h3).
    { eapply same_below_trans; [exact SB2|]. eapply same_below_le; [|exact SB3]. destruct SB2; auto. }
    destruct (live_same h1 h3 oa La SB13) as [La3 Es].
    destruct (hadd_ok h3 oa nb h' o La3 Ln H) as (Lo & SB4 & Po).
    split; auto. split.
    + eapply same_below_trans; [exact SB1|]. eapply same_below_trans; [eapply same_below_le; [|exact SB13]; destruct SB1; auto|].
      eapply same_below_le; [|exact SB4]. destruct SB1, SB13; lia.
    + rewrite Pa, Pb. cbn [bind]. unfold sub, neg. rewrite Pn. cbn [bind]. rewrite <- Es. exact Po.
  - destruct (heval S depth hs h a) as [[h1 oa]|] eqn:Ea; [|discriminate]. cbn [bind fst snd] in H.
    destruct (IHa h h1 oa SB HD Ea) as (La & SB1 & Pa).
    apply halloc_mk in H; auto. destruct H as (Lo & SB2 & Po & _).
    split; auto. split; [|rewrite Pa; exact Po].
    eapply same_below_trans; [exact SB1|]. eapply same_below_le; [|exact SB2]. destruct SB1; auto.
  - destruct (heval S depth hs h a) as [[h1 oa]|] eqn:Ea; [|discriminate]. cbn [bind fst snd] in H.
    destruct (IHa h h1 oa SB HD Ea) as (La & SB1 & Pa).
    apply halloc_mk in H; auto. destruct H as (Lo & SB2 & Po & _).
    split; auto. split; [|rewrite Pa; exact Po].
    eapply same_below_trans; [exact SB1|]. eapply same_below_le; [|exact SB2]. destruct SB1; auto.
Qed.

Lemma different_disjoint n e : different_sites n e -> disjoint_terms n e.
Proof.
  induction e; cbn [different_sites disjoint_terms]; try tauto.
  intros [H1 H2]. split; auto. unfold nonempty_t. clear H1.
  apply NoDup_filter_map. induction H2 as [|t ts H H2 IH]; cbn [map]; constructor; auto.
  intros C. apply in_map_iff in C. destruct C as (t' & E & C).
  rewrite Forall_forall in H. apply (H t' C).
  eapply Permutation_trans; [apply sort_sites_perm|]. rewrite <- E. symmetry. apply sort_sites_perm.
Qed.

Theorem expression_safe h e h' o :
  different_sites (length h) e -> heval S depth hs h e = Ok (h', o) ->
  (forall r, (r < length h)%nat -> nth r h' (O, []) = nth r h (O, [])) /\
  build S depth hs (erase S h e) = Ok (snap S h' o).
Proof.
  intros HD H. apply different_disjoint in HD. assert (SB : same_below (length h) h h) by (split; auto).
  destruct (heval_ok h e h h' o SB HD H) as (_ & [_ H2] & H3). split; auto.
Qed.

End P.
