(** * Expressions of LocalOperators represent the matrices they stand for *)
From Coq Require Import ZArith List Bool Lia Permutation Sorting.Sorted Ring.
From Verif Require Import Base BaseFacts Hilbert_Model HilbertOps_Model Scalar
  LocalOp_Model LocalOp_Spec LocalOp_Facts LocalOp_Kernel LocalOp_Reorder LocalOp_Build
  LocalOp_Matmul LocalOp_Laws.
Import ListNotations.

Lemma map_fst_combine {A B} (a : list A) (b : list B) :
  length a = length b -> map fst (combine a b) = a.
Proof. revert b. induction a; destruct b; simpl; intros; try discriminate; auto. f_equal; auto. Qed.
Lemma map_snd_combine {A B} (a : list A) (b : list B) :
  length a = length b -> map snd (combine a b) = b.
Proof. revert b. induction a; destruct b; simpl; intros; try discriminate; auto. f_equal; auto. Qed.

Section Proofs.
Variable S : scalars.
Hypothesis L : scalar_laws S.
Hypothesis NS : no_small S.
Notation K := (K S).
Notation "0" := (k0 S).
Notation "1" := (k1 S).
Infix "+" := (kadd S).
Infix "*" := (kmul S).
Add Ring Kring : (k_ring S L).

Variable depth : nat.
Notation dp := (Datatypes.S depth).
Variable hs : list (list Z).
Hypothesis Hs : sorted_space hs.

Definition good (o : lop S) (f : list Z -> list Z -> K) : Prop :=
  wf S hs o /\ nzd_ok S o /\
  forall x y, configuration hs x -> configuration hs y -> op_element S hs o x y = f x y.

Lemma good_new c ts o :
  Forall (fun t => valid_term S hs t /\ ordered_or_uniform hs (snd t)) ts ->
  mk_lop S dp hs c ts = Ok o -> good o (element S hs c ts).
Proof.
  intros HF H. assert (HI : Forall (input_ok S hs) ts).
  { eapply Forall_impl; [|exact HF]. intros t [H1 H2]. split; auto. apply ou_order; auto. }
  destruct (mk_lop_ok S L depth hs Hs NS c ts o HI H) as (W & Hz & _ & El). split; auto.
Qed.

Lemma add_number_good a c : wf S hs a ->
  exists o, add_number S dp hs a c = Ok o /\ wf S hs o /\ nzd_ok S o /\
    lo_const S o = lo_const S a + c /\
    forall x y, configuration hs x -> configuration hs y ->
      op_element S hs o x y = op_element S hs a x y + delta S x y c.
Proof.
  intros W. destruct (copy_ok S L depth hs Hs NS a W) as (a' & E & W' & _ & Hc & El).
  unfold add_number. rewrite E. cbn [bind]. eexists. split; [reflexivity|].
  destruct (iadd_number_ok S L hs a' c W') as (W2 & Hz & El2).
  split; auto. split; auto. split; [cbn; rewrite Hc; auto|].
  intros x y Hx Hy. rewrite El2, El by auto. auto.
Qed.

Lemma neg_good a : wf S hs a ->
  exists o, neg S dp hs a = Ok o /\ wf S hs o /\ nzd_ok S o /\
    lo_const S o = kopp S (lo_const S a) /\
    forall x y, configuration hs x -> configuration hs y ->
      op_element S hs o x y = kopp S (op_element S hs a x y).
Proof.
  intros W. unfold neg.
  destruct (mul_number_ok S L depth hs Hs NS a (kopp S 1) W) as (o & E & W' & Hz & Hc & El).
  exists o. split; auto. split; auto. split; auto. split; [rewrite Hc; ring|].
  intros x y Hx Hy. rewrite El by auto. ring.
Qed.

Lemma sub_good a b : wf S hs a -> wf S hs b ->
  exists o, sub S dp hs a b = Ok o /\ wf S hs o /\ nzd_ok S o /\
    lo_const S o = ksub S (lo_const S a) (lo_const S b) /\
    forall x y, configuration hs x -> configuration hs y ->
      op_element S hs o x y = ksub S (op_element S hs a x y) (op_element S hs b x y).
Proof.
  intros Wa Wb. destruct (neg_good b Wb) as (nb & E & Wn & _ & Hc & El). unfold sub. rewrite E. cbn [bind].
  destruct (add_ok S L depth hs Hs NS a nb Wa Wn) as (o & Eo & Wo & Hz & Hco & Elo).
  exists o. split; auto. split; auto. split; auto. split; [rewrite Hco, Hc; ring|].
  intros x y Hx Hy. rewrite Elo, El by auto. ring.
Qed.

Lemma build_good e : forall o,
  valid_expr S hs e -> no_product S e \/ (exists d, uniform_space hs d) ->
  build S dp hs e = Ok o -> good o (denote S hs e).
Proof.
  induction e as [c ts|a IHa b IHb|a IHa c|a IHa c|a IHa|a IHa b IHb|a IHa b IHb|a IHa|a IHa];
    intros o HV HU H; cbn [build valid_expr no_product denote] in *.
  - apply good_new; auto.
  - destruct HV as [V1 V2]. destruct (build S dp hs a) as [oa|]; [|discriminate]. cbn [bind] in H.
    destruct (build S dp hs b) as [ob|]; [|discriminate]. cbn [bind] in H.
    destruct (IHa oa V1) as (Wa & _ & Ea); [tauto|auto|].
    destruct (IHb ob V2) as (Wb & _ & Eb); [tauto|auto|].
    destruct (add_ok S L depth hs Hs NS oa ob Wa Wb) as (o' & E & W & Hz & _ & El).
    rewrite E in H. inversion H; subst. split; auto. split; auto.
    intros x y Hx Hy. rewrite El, Ea, Eb by auto. auto.
  - destruct (build S dp hs a) as [oa|]; [|discriminate]. cbn [bind] in H.
    destruct (IHa oa HV HU eq_refl) as (Wa & _ & Ea).
    destruct (add_number_good oa c Wa) as (o' & E & W & Hz & _ & El).
    rewrite E in H. inversion H; subst. split; auto. split; auto.
    intros x y Hx Hy. rewrite El, Ea by auto. auto.
  - destruct (build S dp hs a) as [oa|]; [|discriminate]. cbn [bind] in H.
    destruct (IHa oa HV HU eq_refl) as (Wa & _ & Ea).
    destruct (mul_number_ok S L depth hs Hs NS oa c Wa) as (o' & E & W & Hz & _ & El).
    rewrite E in H. inversion H; subst. split; auto. split; auto.
    intros x y Hx Hy. rewrite El, Ea by auto. auto.
  - destruct (build S dp hs a) as [oa|]; [|discriminate]. cbn [bind] in H.
    destruct (IHa oa HV HU eq_refl) as (Wa & _ & Ea).
    destruct (neg_good oa Wa) as (o' & E & W & Hz & _ & El).
    rewrite E in H. inversion H; subst. split; auto. split; auto.
    intros x y Hx Hy. rewrite El, Ea by auto. auto.
  - destruct HV as [V1 V2]. destruct (build S dp hs a) as [oa|]; [|discriminate]. cbn [bind] in H.
    destruct (build S dp hs b) as [ob|]; [|discriminate]. cbn [bind] in H.
    destruct (IHa oa V1) as (Wa & _ & Ea); [tauto|auto|].
    destruct (IHb ob V2) as (Wb & _ & Eb); [tauto|auto|].
    destruct (sub_good oa ob Wa Wb) as (o' & E & W & Hz & _ & El).
    rewrite E in H. inversion H; subst. split; auto. split; auto.
    intros x y Hx Hy. rewrite El, Ea, Eb by auto. auto.
  - destruct HV as [V1 V2]. destruct HU as [[]|(d & Hd & Hu)].
    destruct (build S dp hs a) as [oa|]; [|discriminate]. cbn [bind] in H.
    destruct (build S dp hs b) as [ob|]; [|discriminate]. cbn [bind] in H.
    destruct (IHa oa V1) as (Wa & _ & Ea); [right; exists d; split; auto|auto|].
    destruct (IHb ob V2) as (Wb & _ & Eb); [right; exists d; split; auto|auto|].
    destruct (matmul_op_ok S L hs Hs d Hd Hu depth NS oa ob o Wa Wb H) as (W & Hz & El).
    split; auto. split; auto. intros x y Hx Hy. rewrite El by auto.
    apply (comp_ext S hs); auto.
  - destruct (build S dp hs a) as [oa|]; [|discriminate]. cbn [bind] in H.
    destruct (IHa oa HV HU eq_refl) as (Wa & _ & Ea).
    destruct (transpose_ok S L depth hs Hs NS oa Wa) as (o' & E & W & Hz & El).
    rewrite E in H. inversion H; subst. split; auto. split; auto.
    intros x y Hx Hy. rewrite El, Ea by auto. auto.
  - destruct (build S dp hs a) as [oa|]; [|discriminate]. cbn [bind] in H.
    destruct (IHa oa HV HU eq_refl) as (Wa & _ & Ea).
    destruct (conjugate_ok S L depth hs Hs NS oa Wa) as (o' & E & W & Hz & El).
    rewrite E in H. inversion H; subst. split; auto. split; auto.
    intros x y Hx Hy. rewrite El, Ea by auto. auto.
Qed.

Lemma build_total e :
  valid_expr S hs e ->
  no_product S e \/ (exists d, uniform_space hs d /\
                       (Z.of_nat d ^ Z.of_nat (length hs) <= 2 ^ 31 - 1)%Z) ->
  exists o, build S dp hs e = Ok o.
Proof.
  assert (HUU : forall e', no_product S e' \/ (exists d, uniform_space hs d /\
                       (Z.of_nat d ^ Z.of_nat (length hs) <= 2 ^ 31 - 1)%Z) ->
                  no_product S e' \/ (exists d, uniform_space hs d)).
  { intros e' [H|(d & H & _)]; eauto. }
  induction e as [c ts|a IHa b IHb|a IHa c|a IHa c|a IHa|a IHa b IHb|a IHa b IHb|a IHa|a IHa];
    intros HV HU; cbn [build valid_expr no_product] in *.
  - apply (mk_lop_total S L depth hs Hs NS). auto.
  - destruct HV as [V1 V2].
    assert (U1 : no_product S a \/ (exists d, uniform_space hs d /\
                       (Z.of_nat d ^ Z.of_nat (length hs) <= 2 ^ 31 - 1)%Z)) by tauto.
    assert (U2 : no_product S b \/ (exists d, uniform_space hs d /\
                       (Z.of_nat d ^ Z.of_nat (length hs) <= 2 ^ 31 - 1)%Z)) by tauto.
    destruct (IHa V1 U1) as [oa Ea]. destruct (IHb V2 U2) as [ob Eb]. rewrite Ea, Eb. cbn [bind].
    destruct (build_good a oa V1 (HUU _ U1) Ea) as (Wa & _). destruct (build_good b ob V2 (HUU _ U2) Eb) as (Wb & _).
    destruct (add_ok S L depth hs Hs NS oa ob Wa Wb) as (o' & E & _). eauto.
  - destruct (IHa HV HU) as [oa Ea]. rewrite Ea. cbn [bind].
    destruct (build_good a oa HV (HUU _ HU) Ea) as (Wa & _).
    destruct (add_number_good oa c Wa) as (o' & E & _). eauto.
  - destruct (IHa HV HU) as [oa Ea]. rewrite Ea. cbn [bind].
    destruct (build_good a oa HV (HUU _ HU) Ea) as (Wa & _).
    destruct (mul_number_ok S L depth hs Hs NS oa c Wa) as (o' & E & _). eauto.
  - destruct (IHa HV HU) as [oa Ea]. rewrite Ea. cbn [bind].
    destruct (build_good a oa HV (HUU _ HU) Ea) as (Wa & _).
    destruct (neg_good oa Wa) as (o' & E & _). eauto.
  - destruct HV as [V1 V2].
    assert (U1 : no_product S a \/ (exists d, uniform_space hs d /\
                       (Z.of_nat d ^ Z.of_nat (length hs) <= 2 ^ 31 - 1)%Z)) by tauto.
    assert (U2 : no_product S b \/ (exists d, uniform_space hs d /\
                       (Z.of_nat d ^ Z.of_nat (length hs) <= 2 ^ 31 - 1)%Z)) by tauto.
    destruct (IHa V1 U1) as [oa Ea]. destruct (IHb V2 U2) as [ob Eb]. rewrite Ea, Eb. cbn [bind].
    destruct (build_good a oa V1 (HUU _ U1) Ea) as (Wa & _). destruct (build_good b ob V2 (HUU _ U2) Eb) as (Wb & _).
    destruct (sub_good oa ob Wa Wb) as (o' & E & _). eauto.
  - destruct HV as [V1 V2]. destruct HU as [[]|(d & [Hd Hu] & Hsm)].
    assert (U : forall e', no_product S e' \/ (exists d, uniform_space hs d /\
                       (Z.of_nat d ^ Z.of_nat (length hs) <= 2 ^ 31 - 1)%Z)).
    { intros e'. right. exists d. split; auto. split; auto. }
    destruct (IHa V1 (U a)) as [oa Ea]. destruct (IHb V2 (U b)) as [ob Eb]. rewrite Ea, Eb. cbn [bind].
    destruct (build_good a oa V1 (HUU _ (U a)) Ea) as (Wa & _).
    destruct (build_good b ob V2 (HUU _ (U b)) Eb) as (Wb & _).
    apply (matmul_op_total S L hs Hs d Hd Hu depth NS Hsm); auto.
  - destruct (IHa HV HU) as [oa Ea]. rewrite Ea. cbn [bind].
    destruct (build_good a oa HV (HUU _ HU) Ea) as (Wa & _).
    destruct (transpose_ok S L depth hs Hs NS oa Wa) as (o' & E & _). eauto.
  - destruct (IHa HV HU) as [oa Ea]. rewrite Ea. cbn [bind].
    destruct (build_good a oa HV (HUU _ HU) Ea) as (Wa & _).
    destruct (conjugate_ok S L depth hs Hs NS oa Wa) as (o' & E & _). eauto.
Qed.

(** ** rows *)
Lemma good_row o f x junk junkx :
  good o f -> configuration hs x ->
  row_or_fault S hs (f x) (get_conn S hs o junk junkx x).
Proof.
  intros (W & Hz & El) Hx.
  destruct (get_conn_correct S L hs Hs NS o x junk junkx W Hz Hx) as [(l & E & H1 & H2)|[E H]]; rewrite E.
  - split; auto. intros y Hy. rewrite H2, El by auto. auto.
  - split; auto. intros y Hy. rewrite <- El by auto. auto.
Qed.

(** ** hermiticity *)
Lemma conj_opp a : kconj S (kopp S a) = kopp S (kconj S a).
Proof.
  assert (H : kconj S (kopp S a) + kconj S a = 0).
  { rewrite <- (k_conj_add S L). replace (kopp S a + a) with 0 by ring. apply (k_conj_0 S L). }
  transitivity ((kconj S (kopp S a) + kconj S a) + kopp S (kconj S a)); [ring|]. rewrite H. ring.
Qed.

Definition herm_good (o : lop S) : Prop := herm_ok S o /\ kconj S (lo_const S o) = lo_const S o.

Lemma conj_real_add a b : kconj S a = a -> kconj S b = b -> kconj S (a + b) = a + b.
Proof. intros H1 H2. rewrite (k_conj_add S L), H1, H2. auto. Qed.
Lemma conj_real_mul a b : kconj S a = a -> kconj S b = b -> kconj S (a * b) = a * b.
Proof. intros H1 H2. rewrite (k_conj_mul S L), H1, H2. auto. Qed.

Lemma mk_lop_const c ts o : mk_lop S dp hs c ts = Ok o -> lo_const S o = c.
Proof.
  unfold mk_lop. destruct (negb _); [discriminate|].
  set (o0 := mkLop S [] [] [] [] c (kbige S c) true). assert (E0 : lo_const S o0 = c) by reflexivity.
  clearbody o0. revert o0 E0. generalize (filter (fun t : mat S * list nat => match snd t with [] => false | _ => true end) ts).
  induction l as [|t l IH]; intros o0 E0 H; [inversion H; subst; auto|].
  rewrite add_operators_cons in H.
  destruct (add_operator S dp hs o0 (fst t) (snd t)) as [a|] eqn:E; [|discriminate]. cbn [bind] in H.
  apply (IH a); auto. unfold add_operator in E.
  destruct (negb _); [discriminate|]. destruct (existsb _ _); [discriminate|].
  destruct (forallb _ _); [inversion E; subst; auto|].
  destruct (reorder _ _ _ _ _); [|discriminate]. cbn [bind] in E.
  destruct (find_support _ _ _).
  - destruct (append_matrix _ _ _); [|discriminate]. inversion E. auto.
  - destruct (negb _); [discriminate|]. destruct (append_matrix _ _ _); [|discriminate]. inversion E. auto.
Qed.

Lemma matmul_herm a b o d : close_exact S -> uniform_space hs d ->
  wf S hs a -> wf S hs b -> herm_good a -> herm_good b ->
  matmul_op S dp hs a b = Ok o -> herm_good o.
Proof.
  intros HC [Hd Hu] Wa Wb [Ha1 Ha2] [Hb1 Hb2] H. unfold matmul_op in H.
  destruct (copy_ok S L depth hs Hs NS a Wa) as (a' & E & Wa' & _ & Ca & _).
  rewrite E in H. cbn [bind] in H. pose proof (copy_herm S depth hs a a' E) as Ha'.
  unfold imatmul in H.
  destruct (product_terms S dp hs a' b) as [ts|] eqn:ET; [|discriminate]. cbn [bind] in H.
  destruct (mk_lop S dp hs 0 ts) as [pr|] eqn:EP; [|discriminate]. cbn [bind] in H.
  pose proof (mk_lop_herm S depth hs _ _ _ EP) as Hp. pose proof (mk_lop_const _ _ _ EP) as Cp.
  assert (Wp : wf S hs pr).
  { destruct (product_terms_ok S L hs Hs d Hd Hu depth a' b ts Wa' Wb ET) as [HI _].
    eapply (mk_lop_ok S L depth hs Hs NS); eauto. }
  assert (H1 : forall s1, (if kbig S (lo_const S b)
     then (let? s := iadd S dp hs (imul_number S a' (lo_const S b)) pr in Ok (set_const S s 0))
     else Ok pr) = Ok s1 -> herm_ok S s1 /\ lo_const S s1 = 0 /\ wf S hs s1).
  { intros s1. destruct (kbig S (lo_const S b)).
    - destruct (imul_number_ok S L hs a' (lo_const S b) Wa') as (Wi & _).
      destruct (iadd_ok S L depth hs Hs NS _ pr Wi Wp) as (s & Es & Ws & _).
      rewrite Es. cbn [bind]. intros G; inversion G; subst. split; [|split; [reflexivity|apply set_const_wf; auto]].
      assert (Hi : herm_ok S (imul_number S a' (lo_const S b))) by (apply (imul_herm S L hs); auto).
      apply (iadd_herm S depth hs _ _ _ Hi) in Es. exact Es.
    - intros G; inversion G; subst. auto. }
  destruct (if kbig S (lo_const S b) then _ else _) as [s1|] eqn:E1; [|discriminate]. cbn [bind] in H.
  destruct (H1 s1 eq_refl) as (Hh1 & C1 & W1). clear H1 E1.
  destruct (kbig S (lo_const S a')).
  - destruct (mul_number_ok S L depth hs Hs NS b (lo_const S a') Wb) as (m & Em & Wm & _ & Cm & _).
    rewrite Em in H. cbn [bind] in H.
    destruct (iadd_ok S L depth hs Hs NS s1 m W1 Wm) as (s & Es & Ws & _ & Cs & _).
    rewrite Es in H. cbn [bind] in H. inversion H; subst. apply (iadd_herm S depth hs _ _ _ Hh1) in Es.
    split; [exact Es|]. cbn [lo_const set_nzd]. rewrite Cs, C1, Cm, Ca.
    apply conj_real_add; [apply (k_conj_0 S L)|]. apply conj_real_mul; auto.
  - cbn [bind] in H. inversion H; subst. split; [exact Hh1|]. cbn [lo_const set_nzd].
    rewrite C1. apply (k_conj_0 S L).
Qed.

Lemma build_herm e : close_exact S -> forall o,
  valid_expr S hs e -> no_product S e \/ (exists d, uniform_space hs d) ->
  real_scalars S e -> build S dp hs e = Ok o -> herm_good o.
Proof.
  intros HC.
  assert (Cmul : forall a o c, wf S hs a -> kconj S c = c -> kconj S (lo_const S a) = lo_const S a ->
            mul_number S dp hs a c = Ok o -> herm_good o).
  { intros a o c W Hc Ha E. unfold mul_number in E.
    destruct (copy S dp hs a) as [a'|] eqn:Ec; [|discriminate]. cbn [bind] in E. inversion E; subst.
    destruct (copy_ok S L depth hs Hs NS a W) as (a2 & Ec2 & W2 & _ & Ca & _).
    rewrite Ec in Ec2. inversion Ec2; subst a2. split.
    - apply (imul_herm S L hs); auto. eapply copy_herm; eauto.
    - cbn. rewrite Ca. apply conj_real_mul; auto. }
  assert (C1 : kconj S (kopp S 1) = kopp S 1) by (rewrite conj_opp, (k_conj_1 S L); auto).
  assert (Cadd : forall a b o, wf S hs a -> wf S hs b -> kconj S (lo_const S a) = lo_const S a ->
            kconj S (lo_const S b) = lo_const S b -> add S dp hs a b = Ok o -> herm_good o).
  { intros a b o Wa Wb Ha Hb E.
    destruct (add_ok S L depth hs Hs NS a b Wa Wb) as (o' & E' & _ & _ & Co & _).
    rewrite E in E'. inversion E'; subst o'. unfold add in E.
    destruct (copy S dp hs a) as [a'|] eqn:Ec; [|discriminate]. cbn [bind] in E.
    split; [|rewrite Co; apply conj_real_add; auto].
    eapply iadd_herm; [|eauto]. eapply copy_herm; eauto. }
  induction e as [c ts|a IHa b IHb|a IHa c|a IHa c|a IHa|a IHa b IHb|a IHa b IHb|a IHa|a IHa];
    intros o HV HU HR H; cbn [build valid_expr no_product real_scalars] in *.
  - split; [eapply mk_lop_herm; eauto|]. rewrite (mk_lop_const _ _ _ H). auto.
  - destruct HV as [V1 V2]. destruct HR as [R1 R2].
    destruct (build S dp hs a) as [oa|] eqn:Ea; [|discriminate]. cbn [bind] in H.
    destruct (build S dp hs b) as [ob|] eqn:Eb; [|discriminate]. cbn [bind] in H.
    assert (Ua : no_product S a \/ (exists d, uniform_space hs d)) by tauto.
    assert (Ub : no_product S b \/ (exists d, uniform_space hs d)) by tauto.
    destruct (build_good a oa V1 Ua Ea) as (Wa & _). destruct (build_good b ob V2 Ub Eb) as (Wb & _).
    destruct (IHa oa V1 Ua R1 eq_refl) as [_ G1]. destruct (IHb ob V2 Ub R2 eq_refl) as [_ G2].
    apply (Cadd oa ob); auto.
  - destruct HR as [R1 R2]. destruct (build S dp hs a) as [oa|] eqn:Ea; [|discriminate]. cbn [bind] in H.
    destruct (build_good a oa HV HU Ea) as (Wa & _). destruct (IHa oa HV HU R1 eq_refl) as [_ G1].
    unfold add_number in H. destruct (copy S dp hs oa) as [a'|] eqn:Ec; [|discriminate].
    cbn [bind] in H. inversion H; subst.
    destruct (copy_ok S L depth hs Hs NS oa Wa) as (a2 & Ec2 & W2 & _ & Ca & _).
    rewrite Ec in Ec2. inversion Ec2; subst a2. split.
    + intros G. exact (copy_herm S depth hs _ _ Ec G).
    + cbn. rewrite Ca. apply conj_real_add; auto.
  - destruct HR as [R1 R2]. destruct (build S dp hs a) as [oa|] eqn:Ea; [|discriminate]. cbn [bind] in H.
    destruct (build_good a oa HV HU Ea) as (Wa & _). destruct (IHa oa HV HU R1 eq_refl) as [_ G1].
    apply (Cmul oa o c); auto.
  - destruct (build S dp hs a) as [oa|] eqn:Ea; [|discriminate]. cbn [bind] in H.
    destruct (build_good a oa HV HU Ea) as (Wa & _). destruct (IHa oa HV HU HR eq_refl) as [_ G1].
    apply (Cmul oa o (kopp S 1)); auto.
  - destruct HV as [V1 V2]. destruct HR as [R1 R2].
    destruct (build S dp hs a) as [oa|] eqn:Ea; [|discriminate]. cbn [bind] in H.
    destruct (build S dp hs b) as [ob|] eqn:Eb; [|discriminate]. cbn [bind] in H.
    assert (Ua : no_product S a \/ (exists d, uniform_space hs d)) by tauto.
    assert (Ub : no_product S b \/ (exists d, uniform_space hs d)) by tauto.
    destruct (build_good a oa V1 Ua Ea) as (Wa & _). destruct (build_good b ob V2 Ub Eb) as (Wb & _).
    destruct (IHa oa V1 Ua R1 eq_refl) as [_ G1]. destruct (IHb ob V2 Ub R2 eq_refl) as [_ G2].
    unfold sub in H. destruct (neg S dp hs ob) as [nb|] eqn:En; [|discriminate]. cbn [bind] in H.
    destruct (neg_good ob Wb) as (nb' & En' & Wn & _ & Cn & _). rewrite En in En'. inversion En'; subst nb'.
    apply (Cadd oa nb); auto. rewrite Cn, conj_opp, G2. auto.
  - destruct HV as [V1 V2]. destruct HR as [R1 R2]. destruct HU as [[]|(d & HU)].
    destruct (build S dp hs a) as [oa|] eqn:Ea; [|discriminate]. cbn [bind] in H.
    destruct (build S dp hs b) as [ob|] eqn:Eb; [|discriminate]. cbn [bind] in H.
    assert (Ua : forall e', no_product S e' \/ (exists d, uniform_space hs d)) by (intros; right; eauto).
    destruct (build_good a oa V1 (Ua a) Ea) as (Wa & _). destruct (build_good b ob V2 (Ua b) Eb) as (Wb & _).
    pose proof (IHa oa V1 (Ua a) R1 eq_refl). pose proof (IHb ob V2 (Ua b) R2 eq_refl).
    eapply (matmul_herm oa ob o d); eauto.
  - destruct (build S dp hs a) as [oa|] eqn:Ea; [|discriminate]. cbn [bind] in H.
    destruct (IHa oa HV HU HR eq_refl) as [_ G1].
    split; [eapply mk_lop_herm; eauto|]. rewrite (mk_lop_const _ _ _ H). auto.
  - destruct (build S dp hs a) as [oa|] eqn:Ea; [|discriminate]. cbn [bind] in H.
    destruct (IHa oa HV HU HR eq_refl) as [_ G1].
    split; [eapply mk_lop_herm; eauto|]. rewrite (mk_lop_const _ _ _ H). rewrite G1. auto.
Qed.

(** ** tightness of fresh operators and sums *)
Lemma build_tight e : forall o, no_rescaling S e -> build S dp hs e = Ok o -> tight S o.
Proof.
  induction e as [c ts|a IHa b IHb|a IHa c|a IHa c|a IHa|a IHa b IHb|a IHa b IHb|a IHa|a IHa];
    intros o HR H; cbn [build no_rescaling] in *; try tauto.
  - eapply mk_lop_tight; eauto.
  - destruct (build S dp hs a) as [oa|]; [|discriminate]. cbn [bind] in H.
    destruct (build S dp hs b) as [ob|]; [|discriminate]. cbn [bind] in H.
    unfold add in H. destruct (copy S dp hs oa) as [a'|] eqn:Ec; [|discriminate]. cbn [bind] in H.
    eapply iadd_tight; [|eauto]. eapply mk_lop_tight; eauto.
  - destruct (build S dp hs a) as [oa|]; [|discriminate]. cbn [bind] in H.
    unfold add_number in H. destruct (copy S dp hs oa) as [a'|] eqn:Ec; [|discriminate].
    cbn [bind] in H. inversion H; subst. exact (mk_lop_tight S depth hs _ _ _ Ec).
  - destruct (build S dp hs a) as [oa|]; [|discriminate]. cbn [bind] in H. eapply mk_lop_tight; eauto.
  - destruct (build S dp hs a) as [oa|]; [|discriminate]. cbn [bind] in H. eapply mk_lop_tight; eauto.
Qed.

(** ** batches *)
Definition rows_batch (o : lop S) (xs : list (list Z)) (pss : list (list (K * list (K * list Z))))
  : list (list (list Z * K)) :=
  map (fun p => combine (row_xs S o (fst p) (snd p)) (row_mels S o (snd p))) (combine xs pss).

Lemma cumsum_ends a l : cumsum a l = ends a l.
Proof. revert a. induction l; simpl; intros; auto; f_equal; auto. Qed.

Lemma rows_facts o xs pss : batch_ok S hs o xs pss ->
  map (@length (list Z * K)) (rows_batch o xs pss) = map (row_n S o) pss /\
  concat (map (map snd) (rows_batch o xs pss)) = concat (map (row_mels S o) pss) /\
  concat (map (map fst) (rows_batch o xs pss))
    = concat (map (fun p => row_xs S o (fst p) (snd p)) (combine xs pss)).
Proof.
  intros H. induction H as [|x ps xs pss Hx H IH]; [repeat split; reflexivity|].
  destruct IH as (I1 & I2 & I3). unfold rows_batch in *. cbn [combine map fst snd concat].
  pose proof (row_mels_length S o ps) as E1. pose proof (row_xs_length S hs o x ps Hx) as E2.
  split; [|split].
  - f_equal; auto. rewrite combine_length, E1, E2. lia.
  - f_equal; auto. rewrite map_snd_combine; auto. congruence.
  - f_equal; auto. rewrite map_fst_combine; auto. congruence.
Qed.

Lemma rows_are o f xs pss : good o f ->
  Forall2 (fun x ps => row_result S hs o x (combine (row_xs S o x ps) (row_mels S o ps))) xs pss ->
  Forall (configuration hs) xs ->
  Forall2 (fun x row => is_row S hs (f x) row) xs (rows_batch o xs pss).
Proof.
  intros (_ & _ & El) H HF. revert HF. induction H as [|x ps xs pss [H1 H2] H IH]; intros HF.
  - constructor.
  - inversion HF; subst. unfold rows_batch. cbn [combine map fst snd]. constructor; [|apply IH; auto].
    split; auto. intros y Hy. rewrite H2, El by auto. auto.
Qed.

Definition last_sample_nonzero (f : list Z -> list Z -> K) (xs : list (list Z)) : Prop :=
  xs <> [] -> exists y, configuration hs y /\ f (last xs []) y <> 0.

Lemma last_combine_row o xs pss :
  Forall2 (fun x ps => row_result S hs o x (combine (row_xs S o x ps) (row_mels S o ps))) xs pss ->
  xs <> [] ->
  row_result S hs o (last xs []) (combine (row_xs S o (last xs []) (last pss [])) (row_mels S o (last pss []))).
Proof.
  intros H. induction H as [|x ps xs pss Hx H IH]; intros Hne; [congruence|].
  destruct xs as [|x2 xs]; inversion H; subst; [exact Hx|].
  apply IH. discriminate.
Qed.

Lemma flattened_rows o f xs junk junkx :
  good o f -> Forall (configuration hs) xs ->
  lo_act S o = [] \/ lo_nzd S o = true \/ last_sample_nonzero f xs ->
  exists rows,
    Forall2 (fun x row => is_row S hs (f x) row) xs rows /\
    get_conn_flattened S hs o false junk junkx xs =
      Ok (concat (map (map snd) rows), concat (map (map fst) rows), ends 0 (map (@length _) rows)) /\
    n_conn S hs o junk junkx xs = Ok (map (@length _) rows).
Proof.
  intros HG HF HL. pose proof HG as (W & Hz & El).
  destruct (batch_exists S L hs Hs NS o xs W Hz HF) as (pss & HB & HR).
  assert (HLR : last_row_nonempty S o pss).
  { destruct HL as [HL|[HL|HL]].
    - left; auto.
    - right; right. unfold row_n. rewrite HL. lia.
    - destruct xs as [|x xs]; [inversion HB; subst; right; left; auto|]. right; right.
      assert (Hne : x :: xs <> []) by discriminate.
      destruct (HL Hne) as (y & Hy & Hn).
      apply (nonzero_row S hs o (last (x :: xs) [])).
      + apply last_combine_row; auto.
      + exists y. split; auto. rewrite El; auto.
        rewrite Forall_forall in HF. apply HF.
        assert (In (last (x :: xs) []) (x :: xs)).
        { clear. revert x. induction xs as [|z xs IH]; intros x; [simpl; auto|]. right. apply IH. }
        auto. }
  exists (rows_batch o xs pss). destruct (rows_facts o xs pss HB) as (F1 & F2 & F3).
  split; [apply rows_are; auto|]. split.
  - rewrite (flattened_ok S hs o xs pss junk junkx HB HLR), F2, F3, F1, cumsum_ends. auto.
  - rewrite (n_conn_ok S hs o xs pss junk junkx HB HLR), F1. auto.
Qed.

Lemma padded_rows o f xs junk junkx :
  good o f -> Forall (configuration hs) xs -> xs <> [] ->
  lo_nzd S o = true \/ (exists x y, In x xs /\ configuration hs y /\ f x y <> 0) ->
  exists rows, let w := list_max (map (@length _) rows) in
    Forall2 (fun x row => is_row S hs (f x) row) xs rows /\
    get_conn_padded S hs o junk junkx xs =
      Ok (map (fun p => map fst (snd p) ++ repeat (fst p) (w - length (snd p))) (combine xs rows),
          map (fun row => map snd row ++ repeat 0 (w - length row)) rows).
Proof.
  intros HG HF Hne HL. pose proof HG as (W & Hz & El).
  destruct (batch_exists S L hs Hs NS o xs W Hz HF) as (pss & HB & HR).
  exists (rows_batch o xs pss). cbv zeta. destruct (rows_facts o xs pss HB) as (F1 & F2 & F3).
  split; [apply rows_are; auto|].
  assert (Hmx : (0 < list_max (map (row_n S o) pss))%nat).
  { destruct HL as [HL|(x & y & Hx & Hy & Hn)].
    - destruct pss as [|ps pss]; [inversion HB; subst; congruence|].
      assert (row_n S o ps <= list_max (map (row_n S o) (ps :: pss)))%nat by (apply list_max_ge; simpl; auto).
      unfold row_n in H at 1. rewrite HL in H. lia.
    - assert (G : exists ps, In ps pss /\ (0 < row_n S o ps)%nat).
      { assert (Cx : configuration hs x) by (rewrite Forall_forall in HF; auto).
        clear - HR Hx Hy Hn El Cx. revert Hx. induction HR as [|x' ps xs pss H1 H2 IH]; intros Hx; [destruct Hx|].
        destruct Hx as [->|Hx].
        - exists ps. split; [simpl; auto|]. eapply nonzero_row; eauto. exists y. split; auto.
          rewrite El; auto.
        - destruct (IH Hx) as (q & Q1 & Q2). exists q. simpl; auto. }
      destruct G as (ps & G1 & G2).
      assert (row_n S o ps <= list_max (map (row_n S o) pss))%nat by (apply list_max_ge; apply in_map; auto).
      lia. }
  rewrite (padded_ok S hs o xs pss junk junkx HB Hne Hmx), F1.
  set (mx := list_max (map (row_n S o) pss)). clearbody mx. clear - HB.
  do 2 f_equal.
  - induction HB as [|x ps xs pss Hx HB IH]; [reflexivity|].
    unfold rows_batch in *. cbn [combine map fst snd]. f_equal; auto.
    pose proof (row_mels_length S o ps) as E1. pose proof (row_xs_length S hs o x ps Hx) as E2.
    unfold pad_xs. rewrite map_fst_combine by congruence. rewrite combine_length, E1, E2, Nat.min_id. auto.
  - induction HB as [|x ps xs pss Hx HB IH]; [reflexivity|].
    unfold rows_batch in *. cbn [combine map fst snd]. f_equal; auto.
    pose proof (row_mels_length S o ps) as E1. pose proof (row_xs_length S hs o x ps Hx) as E2.
    unfold pad_mels. rewrite map_snd_combine by congruence. rewrite combine_length, E1, E2, Nat.min_id. auto.
Qed.

Lemma max_conn_rows o f xs junk junkx c :
  good o f -> tight S o -> lo_ops S o <> [] \/ lo_nzd S o = false ->
  Forall (configuration hs) xs ->
  n_conn S hs o junk junkx xs = Ok c -> Forall (fun n => n <= max_conn_size S o)%nat c.
Proof.
  intros (W & Hz & El) Ht Hne HF Hn.
  destruct (batch_exists S L hs Hs NS o xs W Hz HF) as (pss & HB & HR).
  unfold n_conn in Hn. destruct (get_conn_flattened S hs o false junk junkx xs) as [[[m x'] sec]|] eqn:E; [|discriminate].
  cbn [bind snd] in Hn. inversion Hn; subst c.
  assert (Es : sec = cumsum 0 (map (row_n S o) pss)).
  { unfold get_conn_flattened in E. rewrite (batch_counts S hs o xs pss HB) in E. cbn [bind] in E.
    assert (G : forall xs c m0 x0 s r, write_batch S hs o None xs c m0 x0 s = Ok r -> snd r = s).
    { clear. induction xs as [|x xs IH]; intros c m0 x0 s r H; cbn [write_batch] in H.
      - inversion H; auto.
      - destruct (if lo_nzd S o then _ else _) as [st0|]; [|discriminate]. cbn [bind] in H.
        destruct (write_terms _ _ _ _ _ _ _ _ _ _) as [st|]; [|discriminate]. cbn [bind] in H.
        eapply IH; eauto. }
    apply G in E. exact E. }
  subst sec. rewrite n_conn_cumsum. apply Forall_map. apply Forall_forall. intros ps Hps.
  assert (exists x, row_ok S hs o x ps).
  { clear - HB Hps. induction HB; [destruct Hps|]. destruct Hps as [->|Hps]; eauto. }
  destruct H as [x Hx]. eapply max_conn_bound; eauto.
Qed.

End Proofs.
