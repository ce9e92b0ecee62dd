(** * Proofs for C116 *)
From Coq Require Import ZArith List Bool Lia Sorting.Sorted Sorting.Permutation.
From Verif Require Import Base Scalar Hilbert_Model LocalOp_Spec LocalOp_Model LocalOp_Facts
  LocalOp_Reorder LocalOp_Final LocCtor_Model LocCtor_Spec.
Import ListNotations.
Open Scope nat_scope.

Lemma can_cast_real a d : can_cast a d = true -> complex_type a -> complex_type d.
Proof. intros H [->| ->]; destruct d; try discriminate H; unfold complex_type; auto. Qed.
Lemma can_cast_same_kind a d :
  (complex_type a -> complex_type d) -> floating_type d -> can_cast a d = true.
Proof.
  intros H [->|[->|[->| ->]]]; destruct a; try reflexivity;
    exfalso; (destruct H as [H|H]; [unfold complex_type; auto| |]; discriminate H).
Qed.

Lemma zdup_spec l : zdup l = false <-> NoDup l.
Proof.
  induction l as [|x l IH]; cbn.
  - split; [constructor|auto].
  - fold (zdup l). rewrite orb_false_iff, IH. split.
    + intros [H1 H2]. constructor; [|auto]. intros Hi.
      assert (existsb (Z.eqb x) l = true) as E
        by (apply existsb_exists; exists x; split; [auto|apply Z.eqb_refl]). congruence.
    + intros H. inversion_clear H as [|? ? H1 H2]. split; [|auto].
      destruct (existsb (Z.eqb x) l) eqn:E; [|auto]. exfalso.
      apply existsb_exists in E as (y & Hy & E). apply Z.eqb_eq in E as <-. auto.
Qed.

Section P.
Variable S : scalars.
Variable depth : nat.

Lemma negligible_spec (m : mat S) :
  forallb (forallb (fun k => negb (kbige S k))) m = true -> ~ not_negligible m.
Proof.
  intros H (r & k & Hr & Hk & E). rewrite forallb_forall in H. specialize (H r Hr).
  rewrite forallb_forall in H. specialize (H k Hk). rewrite E in H. discriminate H.
Qed.

Lemma zdup_of_nat l : zdup (map Z.of_nat l) = negb (nodupb l).
Proof.
  destruct (nodupb l) eqn:E; cbn.
  - apply zdup_spec. apply nodupb_spec in E. clear -E. induction E; constructor; auto.
    intros Hi. apply in_map_iff in Hi as (y & E1 & Hy). apply Nat2Z.inj in E1. congruence.
  - destruct (zdup (map Z.of_nat l)) eqn:E2; [reflexivity|exfalso].
    apply zdup_spec in E2. apply NoDup_map_inv in E2. apply nodupb_spec in E2. congruence.
Qed.

Lemma exists_big hs l :
  existsb (fun s => Z.leb (Z.of_nat (length hs)) s) (map Z.of_nat l)
  = existsb (fun s => Nat.leb (@length (list Z) hs) s) l.
Proof.
  induction l as [|x l IH]; [reflexivity|]. cbn [map existsb]. rewrite IH. f_equal.
  destruct (Nat.leb_spec (length hs) x); [apply Z.leb_le|apply Z.leb_gt]; lia.
Qed.
Lemma no_negative l : existsb (fun s => Z.ltb s 0) (map Z.of_nat l) = false.
Proof.
  induction l as [|x l IH]; [reflexivity|]. cbn [map existsb]. rewrite IH, orb_false_r.
  apply Z.ltb_ge. lia.
Qed.
Lemma to_of_nat l : map Z.to_nat (map Z.of_nat l) = l.
Proof. rewrite map_map. rewrite <- (map_id l) at 2. apply map_ext. intros. apply Nat2Z.id. Qed.

Lemma add_arr_nat hs d o a l :
  can_cast (a_dtype a) d = true -> a_ndim a = 2 ->
  add_arr S depth hs d o a (map Z.of_nat l) = add_operator S depth hs o (a_mat a) l.
Proof.
  intros H1 H2. unfold add_arr, add_operator.
  rewrite H1, H2, zdup_of_nat, exists_big, no_negative, to_of_nat. cbn [negb Nat.eqb].
  destruct (nodupb l); [|reflexivity]. cbn [negb].
  destruct (existsb _ l); [reflexivity|].
  destruct (forallb _ (a_mat a)); reflexivity.
Qed.

Lemma fold_err hs (ts : list (mat S * list nat)) e :
  fold_left (fun acc t => let? a := acc in add_operator S depth hs a (fst t) (snd t)) ts (Err e)
  = Err e.
Proof. induction ts; cbn; auto. Qed.

Lemma add_all_terms hs d (ts : list (typed_term S)) : forall o,
  (forall t, In t ts -> snd (snd t) <> [] -> can_cast (fst t) d = true) ->
  add_all S depth hs d o (map (fun t => mkArr (fst t) 2 (fst (snd t)) (length (fst (snd t)))) ts)
    (map (fun t => SList (map Z.of_nat (snd (snd t)))) ts)
  = add_operators S depth hs o
      (filter (fun t => match snd t with [] => false | _ => true end) (map snd ts)).
Proof.
  induction ts as [|[dt [m l]] ts IH]; intros o H; [reflexivity|].
  cbn [map add_all fst snd filter]. destruct l as [|x l].
  - cbn [map]. apply IH. intros t Ht. apply H. right; auto.
  - cbn [map]. change (Z.of_nat x :: map Z.of_nat l) with (map Z.of_nat (x :: l)).
    rewrite add_arr_nat; [|apply (H (dt, (m, x :: l))); [left; auto|discriminate]|reflexivity].
    unfold add_operators. cbn [fold_left fst snd a_mat bind].
    destruct (add_operator S depth hs o m (x :: l)) as [o'|e] eqn:E; cbn [bind].
    + apply IH. intros t Ht. apply H. right; auto.
    + symmetry. apply fold_err.
Qed.

Lemma nested_sites (ts : list (typed_term S)) : ts <> [] ->
  is_nested (map (fun t => SList (map Z.of_nat (snd (snd t)))) ts) = true.
Proof. destruct ts; [congruence|reflexivity]. Qed.

Lemma pairs hs c (ts : list (typed_term S)) dt d :
  ts <> [] ->
  (dt = Some d \/ dt = None /\ exists t r, ts = t :: r /\ promote (fst t) F32 = d) ->
  (forall t, In t ts -> snd (snd t) <> [] -> can_cast (fst t) d = true) ->
  local_operator S depth hs (matrices ts) (sites ts) c dt
  = (let? o := mk_lop S depth hs c (map snd ts) in Ok (d, o)).
Proof.
  intros Hne Hd Hc. unfold local_operator, mk_lop.
  destruct (forallb is_sorted hs); [|reflexivity]. cbn [negb].
  unfold normalise, matrices, sites. cbn [act_seq]. rewrite nested_sites by auto.
  cbv beta iota zeta.
  match goal with |- context [choose_dtype S dt ?l] =>
    assert (choose_dtype S dt l = Ok d) as -> end.
  { destruct Hd as [->|(-> & t & r & -> & E)]; [reflexivity|]. cbn. now rewrite E. }
  cbn [bind]. rewrite add_all_terms by auto. reflexivity.
Qed.

Lemma flat hs a (l : list Z) c dt :
  local_operator S depth hs (OArr a) (ASeq (map SNum l)) c dt
  = local_operator S depth hs (OList [a]) (ASeq [SList l]) c dt.
Proof.
  unfold local_operator, normalise. cbn [act_seq].
  assert (is_nested (map SNum l) = false) as -> by (induction l; cbn in *; auto).
  assert (map num_of (map SNum l) = l) as ->
    by (rewrite map_map; cbn; apply map_id). reflexivity.
Qed.
Lemma flat_number hs ops s c dt :
  local_operator S depth hs ops (ANum s) c dt = local_operator S depth hs ops (ASeq [SNum s]) c dt.
Proof. reflexivity. Qed.

Lemma add_all_cut_ops hs d extra : forall acts ops o, length ops = length acts ->
  add_all S depth hs d o (ops ++ extra) acts = add_all S depth hs d o ops acts.
Proof.
  induction acts as [|s acts IH]; intros [|a ops] o H; try discriminate H.
  - destruct extra; reflexivity.
  - cbn [app add_all]. injection H as H. destruct s as [z|[|x l]]; auto.
    destruct (add_arr S depth hs d o a (x :: l)); cbn [bind]; auto.
Qed.
Lemma add_all_cut_acts hs d extra : forall ops acts o, length ops = length acts ->
  add_all S depth hs d o ops (acts ++ extra) = add_all S depth hs d o ops acts.
Proof.
  induction ops as [|a ops IH]; intros [|s acts] o H; try discriminate H.
  - reflexivity.
  - cbn [app add_all]. injection H as H. destruct s as [z|[|x l]]; auto.
    destruct (add_arr S depth hs d o a (x :: l)); cbn [bind]; auto.
Qed.

Lemma cut_ops hs ops acts extra c dt : existsb has_len acts = true -> length ops = length acts ->
  local_operator S depth hs (OList (ops ++ extra)) (ASeq acts) c dt
  = local_operator S depth hs (OList ops) (ASeq acts) c dt.
Proof.
  intros Hn Hl. unfold local_operator, normalise. cbn [act_seq]. unfold is_nested. rewrite Hn.
  destruct (forallb is_sorted hs); [|reflexivity]. cbn [negb].
  assert (choose_dtype S dt (ops ++ extra) = choose_dtype S dt ops) as ->
    by (destruct acts, ops; try discriminate; reflexivity).
  destruct (choose_dtype S dt ops); cbn [bind]; [|reflexivity].
  now rewrite add_all_cut_ops.
Qed.
Lemma cut_acts hs ops acts extra c dt : existsb has_len acts = true -> length ops = length acts ->
  local_operator S depth hs (OList ops) (ASeq (acts ++ extra)) c dt
  = local_operator S depth hs (OList ops) (ASeq acts) c dt.
Proof.
  intros Hn Hl. unfold local_operator, normalise. cbn [act_seq]. unfold is_nested.
  rewrite existsb_app, Hn. cbn [orb].
  destruct (forallb is_sorted hs); [|reflexivity]. cbn [negb].
  destruct (choose_dtype S dt ops); cbn [bind]; [|reflexivity].
  now rewrite add_all_cut_acts.
Qed.

(** ** what success tells about the arguments *)
Lemma add_all_nth hs d : forall ops acts o o' k a x l,
  add_all S depth hs d o ops acts = Ok o' ->
  nth_error ops k = Some a -> nth_error acts k = Some (SList (x :: l)) ->
  exists o1 o2, add_arr S depth hs d o1 a (x :: l) = Ok o2.
Proof.
  induction ops as [|b ops IH]; intros [|s acts] o o' [|k] a x l H H1 H2;
    try discriminate H1; try discriminate H2; cbn in H1, H2; cbn [add_all] in H.
  - injection H1 as ->. injection H2 as ->.
    destruct (add_arr S depth hs d o a (x :: l)) as [o1|e] eqn:E; [|discriminate H]. eauto.
  - destruct s as [z|[|y r]]; [discriminate H|eauto|].
    destruct (add_arr S depth hs d o b (y :: r)) as [o1|e] eqn:E; [|discriminate H].
    cbn [bind] in H. eauto.
Qed.

Lemma built hs ops acts c dt d o : existsb has_len acts = true ->
  local_operator S depth hs (OList ops) (ASeq acts) c dt = Ok (d, o) ->
  choose_dtype S dt ops = Ok d /\
  add_all S depth hs d (mkLop S [] [] [] [] c (kbige S c) true) ops acts = Ok o.
Proof.
  intros Hn. unfold local_operator, normalise. cbn [act_seq]. unfold is_nested. rewrite Hn.
  destruct (forallb is_sorted hs); [|discriminate]. cbn [negb].
  destruct (choose_dtype S dt ops) as [d'|]; cbn [bind]; [|discriminate].
  destruct (add_all _ _ _ _ _ _ _) as [o'|] eqn:E; cbn [bind]; [|discriminate].
  intros H. injection H as -> ->. auto.
Qed.

Lemma nth_nested acts k x l : nth_error acts k = Some (SList (x :: l)) -> existsb has_len acts = true.
Proof. intros H. apply nth_error_In in H. apply existsb_exists. exists (SList (x :: l)). auto. Qed.

Lemma first_type hs ops acts c d o a r : existsb has_len acts = true -> ops = a :: r ->
  local_operator S depth hs (OList ops) (ASeq acts) c None = Ok (d, o) -> d = promote (a_dtype a) F32.
Proof.
  intros Hn -> H. apply built in H; [|auto]. destruct H as [H _]. cbn in H. congruence.
Qed.

Lemma types_needed hs ops acts c dt d o k a l :
  local_operator S depth hs (OList ops) (ASeq acts) c dt = Ok (d, o) ->
  nth_error ops k = Some a -> nth_error acts k = Some (SList l) -> l <> [] ->
  (complex_type (a_dtype a) -> complex_type d) /\ a_ndim a = 2 /\
  (not_negligible (a_mat a) -> in_range hs l) /\
  NoDup l /\ (forall s, In s l -> (s < Z.of_nat (length hs))%Z).
Proof.
  intros H H1 H2 Hl. destruct l as [|x l]; [congruence|].
  pose proof (nth_nested _ _ _ _ H2) as Hn.
  apply built in H; [|auto]. destruct H as [_ H].
  destruct (add_all_nth _ _ _ _ _ _ _ _ _ _ H H1 H2) as (o1 & o2 & E).
  unfold add_arr in E.
  destruct (can_cast (a_dtype a) d) eqn:E1; [|discriminate E]. cbn [negb] in E.
  destruct (zdup (x :: l)) eqn:E2; [discriminate E|].
  destruct (existsb (fun s => Z.leb (Z.of_nat (length hs)) s) (x :: l)) eqn:E3; [discriminate E|].
  destruct (Nat.eqb (a_ndim a) 2) eqn:E4; [|discriminate E]. cbn [negb] in E.
  apply zdup_spec in E2.
  assert (forall s, In s (x :: l) -> (s < Z.of_nat (length hs))%Z) as Hlt.
  { intros s Hs. apply Z.lt_nge. intros Hge.
    assert (existsb (fun s => Z.leb (Z.of_nat (length hs)) s) (x :: l) = true) as C
      by (apply existsb_exists; exists s; split; [auto|now apply Z.leb_le]). congruence. }
  split; [now apply can_cast_real|]. split; [now apply Nat.eqb_eq|]. split; [|auto].
  intros Hs. split; [auto|]. intros s Hi. split; [|auto].
  destruct (forallb _ (a_mat a)) eqn:E5; [now apply negligible_spec in E5|].
  destruct (existsb (fun s => Z.ltb s 0) (x :: l)) eqn:E6; [discriminate E|].
  apply Z.nlt_ge. intros Hneg.
  assert (existsb (fun s => Z.ltb s 0) (x :: l) = true) as C
    by (apply existsb_exists; exists s; split; [auto|now apply Z.ltb_lt]). congruence.
Qed.

(** ** sizes *)
Lemma reorder_sites hs (m : mat S) act r :
  reorder S depth hs m act = Ok r -> snd r = sort_sites act.
Proof.
  unfold reorder. destruct (natlist_eqb (sort_sites act) act) eqn:E.
  - intros H. injection H as <-. apply natlist_eqb_eq in E. cbn. auto.
  - intros H.
    repeat match type of H with
    | (let? x := ?e in _) = _ => destruct e; cbn [bind] in H; [|discriminate H]
    end.
    destruct (forallb _ _); [|discriminate H]. injection H as <-. reflexivity.
Qed.

Lemma find_support_in l act : forall i j, find_support l act i = Some j -> In act l.
Proof.
  induction l as [|s l IH]; intros i j; cbn; [discriminate|].
  destruct (natlist_eqb act s) eqn:E.
  - apply natlist_eqb_eq in E as ->. auto.
  - intros H. right. eauto.
Qed.

Lemma add_operator_acts hs o m act o' : add_operator S depth hs o m act = Ok o' ->
  forall s, In s (lo_act S o') -> In s (lo_act S o) \/ s = sort_sites act.
Proof.
  unfold add_operator. destruct (negb _); [discriminate|]. destruct (existsb _ act); [discriminate|].
  destruct (forallb _ m); [intros H; injection H as <-; auto|].
  destruct (reorder S depth hs m act) as [r|] eqn:E; cbn [bind]; [|discriminate].
  apply reorder_sites in E. destruct (find_support _ _ _).
  - destruct (append_matrix _ _ _); cbn [bind]; [|discriminate].
    intros H. injection H as <-. cbn. auto.
  - destruct (negb _); [discriminate|]. destruct (append_matrix _ _ _); cbn [bind]; [|discriminate].
    intros H. injection H as <-. cbn. intros s Hs. apply in_app_or in Hs as [|[<-|[]]]; auto.
Qed.

Lemma nprod_dim hs act : nprod (map (@length Z) (lss_of hs act)) = local_dim hs act.
Proof. unfold nprod, lss_of, local_dim. now rewrite map_map. Qed.

Lemma add_operator_new hs o m act o' : add_operator S depth hs o m act = Ok o' ->
  increasing_sites act -> not_negligible m -> ~ In act (lo_act S o) ->
  length m = local_dim hs act.
Proof.
  intros H Hi Hm Hn. unfold add_operator in H.
  destruct (negb _); [discriminate|]. destruct (existsb _ act); [discriminate|].
  destruct (forallb _ m) eqn:E0; [now apply negligible_spec in E0|].
  unfold reorder in H. rewrite sort_sites_id in H by exact Hi.
  assert (natlist_eqb act act = true) as E1 by now apply natlist_eqb_eq. rewrite E1 in H.
  cbn [bind fst snd] in H.
  destruct (find_support (lo_act S o) act 0) eqn:E2; [now apply find_support_in in E2|].
  destruct (Nat.eqb (nrows S m) (nprod (map (@length Z) (lss_of hs act)))) eqn:E3; [|discriminate H].
  apply Nat.eqb_eq in E3. rewrite nprod_dim in E3. exact E3.
Qed.

Lemma add_arr_acts hs d o a act o' : add_arr S depth hs d o a act = Ok o' ->
  forall s, In s (lo_act S o') -> In s (lo_act S o) \/ Permutation (map Z.of_nat s) act.
Proof.
  unfold add_arr. repeat (destruct (negb _); [discriminate|]).
  destruct (zdup act); [discriminate|].
  destruct (existsb _ act); [discriminate|]. destruct (negb _); [discriminate|].
  destruct (forallb _ (a_mat a)); [intros H; injection H as <-; auto|].
  destruct (existsb (fun s => Z.ltb s 0) act) eqn:E; [discriminate|].
  intros H s Hs. destruct (add_operator_acts _ _ _ _ _ H s Hs) as [|E2]; [auto|]. right.
  assert (map Z.of_nat (map Z.to_nat act) = act) as E3.
  { clear -E. induction act as [|x l IH]; [reflexivity|]. cbn in E |- *.
    apply orb_false_iff in E as [E1 E2]. apply Z.ltb_ge in E1. rewrite IH by auto.
    f_equal. lia. }
  rewrite E2. eapply Permutation_trans; [apply Permutation_map, Permutation_sym, sort_sites_perm|].
  rewrite E3. apply Permutation_refl.
Qed.

Lemma add_all_size hs d l : forall ops acts o o' k a,
  add_all S depth hs d o ops acts = Ok o' ->
  nth_error ops k = Some a -> nth_error acts k = Some (SList (map Z.of_nat l)) -> l <> [] ->
  increasing_sites l -> not_negligible (a_mat a) ->
  ~ In l (lo_act S o) ->
  (forall j z, (j < k)%nat -> nth_error acts j = Some (SList z) -> ~ Permutation (map Z.of_nat l) z) ->
  length (a_mat a) = local_dim hs l.
Proof.
  induction ops as [|b ops IH]; intros [|s acts] o o' [|k] a H H1 H2 Hne Hi Hm Hn Hj;
    try discriminate H1; try discriminate H2; cbn in H1, H2; cbn [add_all] in H.
  - injection H1 as ->. injection H2 as ->.
    destruct l as [|x l]; [congruence|]. cbn [map] in H.
    change (Z.of_nat x :: map Z.of_nat l) with (map Z.of_nat (x :: l)) in H.
    destruct (add_arr S depth hs d o a (map Z.of_nat (x :: l))) as [o1|e] eqn:E; [|discriminate H].
    assert (can_cast (a_dtype a) d = true) as Ec.
    { unfold add_arr in E. destruct (can_cast (a_dtype a) d); [auto|discriminate E]. }
    assert (a_ndim a = 2) as Ed.
    { unfold add_arr in E. rewrite Ec in E. cbn [negb] in E. destruct (zdup _); [discriminate E|].
      destruct (existsb _ _); [discriminate E|].
      destruct (Nat.eqb (a_ndim a) 2) eqn:E4; [now apply Nat.eqb_eq|discriminate E]. }
    rewrite add_arr_nat in E by auto. eapply add_operator_new; eauto.
  - assert (forall j z, (j < k)%nat -> nth_error acts j = Some (SList z) ->
              ~ Permutation (map Z.of_nat l) z) as Hj'.
    { intros j z Hjk E. apply (Hj (Datatypes.S j) z); [lia|exact E]. }
    destruct s as [z|[|y r]]; [discriminate H|eapply IH; eauto|].
    destruct (add_arr S depth hs d o b (y :: r)) as [o1|e] eqn:E; [|discriminate H].
    cbn [bind] in H. eapply (IH acts o1 o' k a); eauto.
    intros Hin. destruct (add_arr_acts _ _ _ _ _ _ E l Hin) as [Hin'|Hp]; [auto|].
    apply (Hj 0%nat (y :: r)); [lia|reflexivity|exact Hp].
Qed.

Lemma sizes hs ops acts c dt d o k a l :
  local_operator S depth hs (OList ops) (ASeq acts) c dt = Ok (d, o) ->
  nth_error ops k = Some a -> nth_error acts k = Some (SList (map Z.of_nat l)) -> l <> [] ->
  increasing_sites l -> not_negligible (a_mat a) ->
  (forall j z, (j < k)%nat -> nth_error acts j = Some (SList z) -> ~ Permutation (map Z.of_nat l) z) ->
  length (a_mat a) = local_dim hs l.
Proof.
  intros H H1 H2 Hne Hi Hm Hj.
  assert (existsb has_len acts = true) as Hn.
  { apply existsb_exists. exists (SList (map Z.of_nat l)). split; [eapply nth_error_In; eauto|auto]. }
  apply built in H; [|auto]. destruct H as [_ H].
  eapply add_all_size; eauto.
Qed.

Lemma mixed_types hs ops acts c a r k b l :
  ops = a :: r -> ~ complex_type (a_dtype a) ->
  nth_error ops k = Some b -> complex_type (a_dtype b) ->
  nth_error acts k = Some (SList l) -> l <> [] ->
  raises (local_operator S depth hs (OList ops) (ASeq acts) c None).
Proof.
  intros E Ha Hb Hc Hk Hl.
  destruct (local_operator S depth hs (OList ops) (ASeq acts) c None) as [[d o]|e] eqn:H;
    [exfalso|now exists e].
  pose proof (types_needed _ _ _ _ _ _ _ _ _ _ H Hb Hk Hl) as [Hd _]. specialize (Hd Hc).
  destruct l as [|x l]; [congruence|].
  assert (d = promote (a_dtype a) F32) as ->
    by (eapply first_type; [eapply nth_nested; eauto|exact E|exact H]).
  apply Ha. destruct (a_dtype a); destruct Hd as [Hd|Hd]; try discriminate Hd;
    unfold complex_type; auto.
Qed.

Lemma rebuilt d o : lo_ops S o <> [] -> floating_type d -> rebuilt_dtype S d o = d.
Proof.
  unfold rebuilt_dtype. destruct (lo_ops S o); [congruence|].
  intros _ [->|[->|[->| ->]]]; reflexivity.
Qed.
Lemma single_type hs a l c d o :
  local_operator S depth hs (OList [a]) (ASeq [SList l]) c None = Ok (d, o) ->
  keeps_values d (a_dtype a).
Proof.
  intros H. apply first_type with (a := a) (r := []) in H; [|reflexivity|reflexivity]. subst d.
  destruct (a_dtype a); split; intros [E|E]; try discriminate E;
    try (destruct E as [E|E]; discriminate E); unfold complex_type, double_type; cbn; auto.
Qed.
End P.

Lemma rows_of_terms (S : scalars) (L : scalar_laws S) depth hs (Hs : sorted_space hs) (NS : no_small S)
  c (ts : list (typed_term S)) dt d x junk junkx :
  ts <> [] ->
  (dt = Some d \/ dt = None /\ exists t r, ts = t :: r /\ promote (fst t) F32 = d) ->
  (forall t, In t ts -> can_cast (fst t) d = true) ->
  Forall (fun t => valid_term S hs (snd t) /\ ordered_or_uniform hs (snd (snd t))) ts ->
  configuration hs x ->
  exists o, local_operator S (Datatypes.S depth) hs (matrices ts) (sites ts) c dt = Ok (d, o) /\
    row_or_fault S hs (element S hs c (map snd ts) x) (get_conn S hs o junk junkx x).
Proof.
  intros H1 H2 H3 H4 Hx. rewrite (pairs S (Datatypes.S depth) hs c ts dt d) by auto.
  destruct (new_row S L depth hs Hs NS c (map snd ts) x junk junkx) as (o & E & Hr); [|auto|].
  - apply Forall_map. exact H4.
  - exists o. rewrite E. auto.
Qed.

Section Q.
Variable S : scalars.
Variable depth : nat.

Lemma not_matrix hs d o (a : arr S) l : a_ndim a <> 2 -> raises (add_arr S depth hs d o a l).
Proof.
  intros H. unfold add_arr. apply Nat.eqb_neq in H. rewrite H. cbn [negb].
  destruct (can_cast _ _); cbn [negb]; [|now exists ValueError].
  destruct (zdup l); [now exists ValueError|].
  destruct (existsb _ l); now exists ValueError.
Qed.

Lemma raises_bind {A B} (e : res A) (f : A -> res B) : raises e -> raises (let? x := e in f x).
Proof. intros (x & ->). now exists x. Qed.

Lemma flat_list hs os l c dt :
  l <> [] -> Forall (fun a => a_ndim a = 2) os ->
  raises (local_operator S depth hs (OList os) (ASeq (map SNum l)) c dt).
Proof.
  intros Hl Ho. unfold local_operator, normalise. cbn [act_seq].
  destruct (forallb is_sorted hs); [|now exists ValueError]. cbn [negb].
  assert (is_nested (map SNum l) = false) as -> by (clear; induction l; cbn in *; auto).
  destruct (choose_dtype S dt [stack S os]) as [d|e]; cbn [bind]; [|now exists e].
  apply raises_bind. destruct l as [|x l]; [congruence|]. cbn [map add_all num_of].
  apply raises_bind. apply not_matrix.
  destruct os as [|a os]; cbn; [discriminate|].
  inversion_clear Ho as [|? ? H1 H2]. rewrite H1. discriminate.
Qed.

Lemma mixed_sites hs ops acts k z c dt :
  existsb has_len acts = true -> k < length ops -> nth_error acts k = Some (SNum z) ->
  raises (local_operator S depth hs (OList ops) (ASeq acts) c dt).
Proof.
  intros Hn Hk Hz. unfold local_operator, normalise. cbn [act_seq]. unfold is_nested. rewrite Hn.
  destruct (forallb is_sorted hs); [|now exists ValueError]. cbn [negb].
  destruct (choose_dtype S dt ops) as [d|e]; cbn [bind]; [|now exists e].
  apply raises_bind. generalize (mkLop S [] [] [] [] c (kbige S c) true).
  clear Hn. revert k acts Hk Hz. induction ops as [|a ops IH]; intros k acts Hk Hz o; [cbn in Hk; lia|].
  destruct acts as [|s acts]; [destruct k; discriminate Hz|]. cbn [add_all].
  destruct k as [|k]; cbn in Hz.
  - injection Hz as ->. now exists TypeError.
  - cbn in Hk. destruct s as [y|[|y r]]; [now exists TypeError|apply (IH k); [lia|auto]|].
    destruct (add_arr S depth hs d o a (y :: r)) as [o1|e]; [|now exists e].
    cbn [bind]. apply (IH k); [lia|auto].
Qed.

Lemma nested_matrix hs a l acts c dt :
  l <> [] -> a_ndim a = 2 -> 0 < a_len a ->
  raises (local_operator S depth hs (OArr a) (ASeq (SList l :: acts)) c dt).
Proof.
  intros Hl Ha Hp. unfold local_operator, normalise. cbn [act_seq is_nested existsb has_len orb].
  destruct (forallb is_sorted hs); [|now exists ValueError]. cbn [negb].
  unfold rows. destruct (a_len a) as [|n]; [lia|]. cbn [repeat].
  match goal with |- context [choose_dtype S dt ?x] => destruct (choose_dtype S dt x) as [d|e] end;
    cbn [bind]; [|now exists e].
  apply raises_bind. destruct l as [|x l]; [congruence|]. cbn [add_all].
  apply raises_bind. apply not_matrix. cbn. lia.
Qed.

Lemma floating hs ops act c d o :
  local_operator S depth hs ops act c None = Ok (d, o) -> floating_type d.
Proof.
  unfold local_operator. destruct (forallb is_sorted hs); [|discriminate]. cbn [negb].
  destruct (normalise S ops act) as [os acts]. destruct os as [|a os]; cbn [choose_dtype bind]; [discriminate|].
  match goal with |- context [add_all S depth ?p ?q ?r ?s ?t] => destruct (add_all S depth p q r s t) end; cbn; [|discriminate].
  intros H. injection H as <- _. unfold floating_type. destruct (a_dtype a); cbn; auto.
Qed.
End Q.
